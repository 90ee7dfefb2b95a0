(* C74: the level 1 transistor *)
Require Import Reals ZArith Bool Lra Lia Psatz.
Require Import Verif.Loops Verif.Mos_Model Verif.Mos_Proofs Verif.Mos_Slopes Verif.Mos_Settle Verif.Mos_Caps.
Local Open Scope R_scope.

(* the current the device puts in the circuit is that of the level 1 equation at the voltages of the nodes, whichever way
   round drain and source are, for both polarities; the probes report its size and the threshold *)
Theorem C74_current : forall m t e n s d,
  in_range e n -> initial_step e = false -> do_tr m t e n s = Some d -> evaluated_at m n d -> bulk_off m n -> 0 < t_phi t ->
  tr_amps d n = drain_current m t n /\
  probe_ids m d = level1 m t (sgn (polarity m) * (drain m n - source m n)) (sgn (polarity m) * (ng n - source m n)) (sgn (polarity m) * (nb n - source m n)) /\
  probe_vth m d = sgn (polarity m) * threshold m t (sgn (polarity m) * (nb n - source m n)).
Proof.
  intros m t e n s d Hr Hi Hd He Hb Hp.
  destruct (eval_facts _ _ _ _ _ _ Hr Hi Hd He Hb Hp) as (rv & E1 & E2 & E3 & E4 & E5). cbv zeta in E5.
  destruct E5 as (_ & _ & _ & _ & E6 & _ & _ & E7).
  rewrite E7, E6. rewrite (drain_current_V m t n rv E2). split; [reflexivity|].
  unfold probe_ids, probe_vth. rewrite E1, E6, E4. assert (HP := sgn_sq (polarity m)).
  unfold source, drain, Vds, Vgs, Vbs in *. set (p := sgn (polarity m)) in *.
  destruct (Rle_dec 0 (p * (nd n - ns n))) as [H|H]; destruct rv.
  - assert (X : p * (nd n - ns n) = 0) by lra. assert (Y : nd n = ns n).
    { assert (Z0 : p * (p * (nd n - ns n)) = 0) by (rewrite X; ring). rewrite <- Rmult_assoc, HP in Z0. lra. }
    rewrite Y. split; [|ring].
    replace (p * - (- p * level1 m t (p * (ns n - ns n)) (p * (ng n - ns n)) (p * (nb n - ns n))))
      with (p * p * level1 m t (p * (ns n - ns n)) (p * (ng n - ns n)) (p * (nb n - ns n))) by ring. rewrite HP. ring.
  - split; [|ring]. rewrite <- Rmult_assoc, HP. ring.
  - split; [|ring].
    replace (p * - (- p * level1 m t (p * (ns n - nd n)) (p * (ng n - nd n)) (p * (nb n - nd n))))
      with (p * p * level1 m t (p * (ns n - nd n)) (p * (ng n - nd n)) (p * (nb n - nd n))) by ring. rewrite HP. ring.
  - exfalso. lra.
Qed.
Print Assumptions C74_current.

(* the equation, region by region *)
Theorem C74_regions : forall m t ds gs bs, 0 <= ds ->
  let gst := gs - threshold m t bs in
  (gst <= 0 -> level1 m t ds gs bs = 0) /\
  (0 <= gst <= ds -> level1 m t ds gs bs = t_beta t / 2 * (gst * gst) * (1 + lam m * ds)) /\
  (ds <= gst -> level1 m t ds gs bs = t_beta t * (gst - ds / 2) * ds * (1 + lam m * ds)).
Proof.
  intros m t ds gs bs H gst. unfold level1, sqpos. fold gst.
  assert (P : forall x, 0 <= x -> pos x = x) by (intros x Hx; unfold pos; destruct (Rlt_dec 0 x); lra).
  assert (N : forall x, x <= 0 -> pos x = 0) by (intros x Hx; unfold pos; destruct (Rlt_dec 0 x); lra).
  split; [|split]; intros G.
  - rewrite (N gst), (N (gst - ds)) by lra. ring.
  - rewrite (P gst), (N (gst - ds)) by lra. field.
  - rewrite (P gst), (P (gst - ds)) by lra. field.
Qed.
Print Assumptions C74_regions.

(* what the device contributes to a small signal is the derivative of the drain current along every direction in which
   the nodes can move: at the edges of the regions and where drain and source change places too *)
Theorem C74_slopes : forall m t e n s d u,
  in_range e n -> initial_step e = false -> do_tr m t e n s = Some d -> evaluated_at m n d -> bulk_off m n -> 0 < t_phi t ->
  derivable_pt_lim (fun h => drain_current m t (Nodes (nd n + h * nd u) (ng n + h * ng u) (ns n + h * ns u) (nb n + h * nb u))) 0 (ac_amps d u).
Proof.
  intros m t e n s d u Hr Hi Hd He Hb Hp.
  destruct (eval_facts _ _ _ _ _ _ Hr Hi Hd He Hb Hp) as (rv & E1 & E2 & E3 & E4 & E5). cbv zeta in E5.
  destruct E5 as (_ & _ & _ & _ & _ & G1 & G2 & _).
  assert (D := drain_current_slope m t n u rv E2 ltac:(lra)).
  eapply dlim_val; [|exact D]. unfold side_slope, orient, ac_amps, values, ports. cbn [fst snd port_sum].
  set (gst := Vgs m n rv - threshold m t (Vbs m n rv)) in *.
  set (gm := t_beta t * (1 + lam m * Vds m n rv) * (pos gst - pos (gst - Vds m n rv))) in *.
  set (gmb := gm * (gamma m * (0.5 / sqrt (t_phi t - Vbs m n rv)))) in *.
  rewrite <- G1. unfold Vds, Vgs, Vbs in *. assert (HP := sgn_sq (polarity m)). set (p := sgn (polarity m)) in *. clearbody gm gmb p.
  destruct rv; destruct G2 as (-> & -> & -> & ->).
  - replace (- p * (gds d * (p * (ns u - nd u)) + gm * (p * (ng u - nd u)) + gmb * (p * (nb u - nd u))))
      with (p * p * (gds d * (nd u - ns u) + gm * (nd u - ng u) + gmb * (nd u - nb u))) by ring. rewrite HP. ring.
  - replace (p * (gds d * (p * (nd u - ns u)) + gm * (p * (ng u - ns u)) + gmb * (p * (nb u - ns u))))
      with (p * p * (gds d * (nd u - ns u) + gm * (ng u - ns u) + gmb * (nb u - ns u))) by ring. rewrite HP. ring.
Qed.
Print Assumptions C74_slopes.

(* while the voltages of the nodes stay, a device in any state ends at them: the limits never hold it away, and from then on
   it carries the drain current *)
Theorem C74_settles : forall m t e n s,
  in_range e n -> initial_step e = false -> 0 < t_phi t -> 0 <= phi m -> 0 <= vds s -> (tied e = true -> nd n = ng n) ->
  exists K, forall j, (K <= j)%nat -> exists d, iterate m t e n j s = Some d /\ evaluated_at m n d /\ (bulk_off m n -> tr_amps d n = drain_current m t n).
Proof.
  intros m t e n s Hr Hi Hp Hm Hs Ht.
  assert (A : exists K, forall j, (K <= j)%nat -> exists d, iterate m t e n j s = Some d /\ evaluated_at m n d).
  { destruct (tied e) eqn:E.
    - apply settles_tied; auto.
    - apply settles_untied; auto. }
  destruct A as [K HK]. exists (S K). intros j Hj. destruct (HK j ltac:(lia)) as (d & D1 & D2). exists d. split; [assumption|]. split; [assumption|].
  intros Hb. destruct j as [|j]; [lia|]. simpl in D1. destruct (iterate m t e n j s) as [s'|] eqn:E; cbn [bind] in D1; [|discriminate].
  exact (proj1 (C74_current m t e n s' d Hr Hi D1 D2 Hb Hp)).
Qed.
Print Assumptions C74_settles.

(* every device that was evaluated has a state that C74_settles and the capacitances ask for *)
Theorem C74_reachable : forall m t e n s d, do_tr m t e n s = Some d -> 0 <= vds d /\ 0 <= vdsat d.
Proof.
  intros m t e n s d Hd.
  destruct (do_tr_inv _ _ _ _ _ _ Hd) as (rv0 & ds & gs & bs & d0 & Hn & Ht & E1 & E2 & E3 & E4 & E5 & E6 & E7 & _).
  destruct (tr_eval_inv _ _ _ _ _ _ _ _ _ Ht) as (rv & ds' & gs' & bs' & sarg & dsarg & fwd & on & _ & _ & _ & H0 & H1 & _ & F2 & _).
  rewrite E2, E7, F2. auto.
Qed.
Print Assumptions C74_reachable.

(* the channel only takes power, and no slope is negative *)
Theorem C74_passive : forall m t e n s d,
  in_range e n -> initial_step e = false -> do_tr m t e n s = Some d -> evaluated_at m n d -> bulk_off m n -> 0 < t_phi t ->
  0 <= t_beta t -> 0 <= lam m -> 0 <= gamma m ->
  0 <= (nd n - ns n) * tr_amps d n /\ 0 <= probe_ids m d /\ 0 <= gds d /\ 0 <= probe_gm d /\ 0 <= probe_gmb d.
Proof.
  intros m t e n s d Hr Hi Hd He Hb Hp Hbeta Hl Hg.
  destruct (eval_facts _ _ _ _ _ _ Hr Hi Hd He Hb Hp) as (rv & E1 & E2 & E3 & E4 & E5). cbv zeta in E5.
  destruct E5 as (_ & _ & _ & _ & E6 & G1 & G2 & E7). rewrite E7. unfold probe_ids, probe_gm, probe_gmb. rewrite E1, E6, G1.
  set (gst := Vgs m n rv - threshold m t (Vbs m n rv)) in *. set (ds := Vds m n rv) in *.
  assert (P1 : 0 <= pos gst) by (apply pos_ge). assert (P2 : 0 <= pos (gst - ds)) by (apply pos_ge).
  assert (P3 : pos (gst - ds) <= pos gst) by (unfold pos; destruct (Rlt_dec 0 gst); destruct (Rlt_dec 0 (gst - ds)); lra).
  assert (Q : 0 <= sqpos gst - sqpos (gst - ds)) by (unfold sqpos; nra).
  assert (F : 0 <= t_beta t * (1 + lam m * ds)) by (apply Rmult_le_pos; [assumption | assert (0 <= lam m * ds) by (apply Rmult_le_pos; assumption); lra]).
  assert (L1 : 0 <= level1 m t ds (Vgs m n rv) (Vbs m n rv)).
  { unfold level1. fold gst. replace (t_beta t / 2 * (1 + lam m * ds)) with (t_beta t * (1 + lam m * ds) / 2) by field. apply Rmult_le_pos; [lra | assumption]. }
  assert (GM : 0 <= t_beta t * (1 + lam m * ds) * (pos gst - pos (gst - ds))) by (apply Rmult_le_pos; lra).
  assert (S : 0 < sqrt (t_phi t - Vbs m n rv)) by (apply sqrt_lt_R0; lra).
  assert (GB : 0 <= gamma m * (0.5 / sqrt (t_phi t - Vbs m n rv))).
  { apply Rmult_le_pos; [assumption|]. apply Rlt_le, Rdiv_lt_0_compat; lra. }
  assert (HP := sgn_sq (polarity m)). set (p := sgn (polarity m)) in *. set (L := level1 m t ds (Vgs m n rv) (Vbs m n rv)) in *.
  assert (W : 0 <= ds * L) by (apply Rmult_le_pos; assumption).
  split; [|split; [|split; [|split]]].
  - unfold ds, Vds in W. fold p in W. destruct rv.
    + replace ((nd n - ns n) * (- p * L)) with (p * (ns n - nd n) * L) by ring. exact W.
    + replace ((nd n - ns n) * (p * L)) with (p * (nd n - ns n) * L) by ring. exact W.
  - destruct rv; [replace (p * - (- p * L)) with (p * p * L) by ring | replace (p * (p * L)) with (p * p * L) by ring]; rewrite HP; lra.
  - apply Rplus_le_le_0_compat; apply Rmult_le_pos; try assumption. apply Rmult_le_pos; lra.
  - destruct rv; destruct G2 as (A1 & A2 & A3 & A4); [rewrite A3 | rewrite A1]; assumption.
  - destruct rv; destruct G2 as (A1 & A2 & A3 & A4); [rewrite A4 | rewrite A2]; apply Rmult_le_pos; assumption.
Qed.
Print Assumptions C74_passive.

(* drain and source can be exchanged, and a p channel device is an n channel device with all voltages and currents reversed *)
Definition swap (n : nodes) : nodes := Nodes (ns n) (ng n) (nd n) (nb n).
Definition flip (n : nodes) : nodes := Nodes (- nd n) (- ng n) (- ns n) (- nb n).
Definition other (p : polarity_t) : polarity_t := match p with pN => pP | pP => pN end.
Definition opposite (m : model) : model :=
  Model (other (polarity m)) (vto m) (gamma m) (phi m) (kp m) (lambda m) (cox m) (tnom_k m) (egap m) (cmodel m)
    (lmlt m) (wmlt m) (xl m) (xw m) (ld m) (del m) (wd m) (cgso_m m) (cgdo_m m) (cgbo_m m).

Theorem C74_exchange : forall m t e n s d s' d',
  initial_step e = false -> 0 < t_phi t -> bulk_off m n ->
  in_range e n -> do_tr m t e n s = Some d -> evaluated_at m n d ->
  do_tr m t e (swap n) s' = Some d' -> evaluated_at m (swap n) d' ->
  tr_amps d' (swap n) = - tr_amps d n.
Proof.
  intros m t e n s d s' d' Hi Hp Hb Hr Hd He Hd' He'.
  assert (Hr' : in_range e (swap n)) by (destruct Hr as (A & B & C & D); repeat split; cbn; tauto).
  assert (Hb' : bulk_off m (swap n)).
  { unfold bulk_off, source, swap in *. cbn. set (p := sgn (polarity m)) in *.
    destruct (Rle_dec 0 (p * (nd n - ns n))) as [H1|H1]; destruct (Rle_dec 0 (p * (ns n - nd n))) as [H2|H2]; try assumption; try lra. }
  destruct (C74_current m t e n s d Hr Hi Hd He Hb Hp) as [-> _].
  destruct (C74_current m t e (swap n) s' d' Hr' Hi Hd' He' Hb' Hp) as [-> _].
  destruct (Rle_dec 0 (Vds m n false)) as [H|H].
  - rewrite (drain_current_V m t n false H). rewrite (drain_current_V m t (swap n) true); [|exact H].
    change (Vds m (swap n) true) with (Vds m n false). change (Vgs m (swap n) true) with (Vgs m n false). change (Vbs m (swap n) true) with (Vbs m n false). ring.
  - assert (H' : 0 <= Vds m n true) by (unfold Vds in *; lra).
    rewrite (drain_current_V m t n true H'). rewrite (drain_current_V m t (swap n) false); [|exact H'].
    change (Vds m (swap n) false) with (Vds m n true). change (Vgs m (swap n) false) with (Vgs m n true). change (Vbs m (swap n) false) with (Vbs m n true). ring.
Qed.
Print Assumptions C74_exchange.

Theorem C74_mirror : forall m t e n s d s' d',
  initial_step e = false -> 0 < t_phi t -> bulk_off m n ->
  in_range e n -> in_range e (flip n) -> do_tr m t e n s = Some d -> evaluated_at m n d ->
  do_tr (opposite m) t e (flip n) s' = Some d' -> evaluated_at (opposite m) (flip n) d' ->
  tr_amps d' (flip n) = - tr_amps d n.
Proof.
  intros m t e n s d s' d' Hi Hp Hb Hr Hr' Hd He Hd' He'.
  assert (Ho : sgn (polarity (opposite m)) = - sgn (polarity m)) by (unfold opposite; cbn; destruct (polarity m); cbn; lra).
  assert (V : forall rv, Vds (opposite m) (flip n) rv = Vds m n rv /\ Vgs (opposite m) (flip n) rv = Vgs m n rv /\ Vbs (opposite m) (flip n) rv = Vbs m n rv).
  { intros rv. unfold Vds, Vgs, Vbs. rewrite Ho. unfold flip. destruct rv; cbn; repeat split; ring. }
  assert (Hb' : bulk_off (opposite m) (flip n)).
  { unfold bulk_off, source in *. rewrite Ho. cbn [flip nd ns nb]. set (p := sgn (polarity m)) in *.
    replace (- p * (- nd n - - ns n)) with (p * (nd n - ns n)) by ring. destruct (Rle_dec 0 (p * (nd n - ns n))); lra. }
  destruct (C74_current m t e n s d Hr Hi Hd He Hb Hp) as [-> _].
  destruct (C74_current (opposite m) t e (flip n) s' d' Hr' Hi Hd' He' Hb' Hp) as [-> _].
  assert (Lm : forall a b c, level1 (opposite m) t a b c = level1 m t a b c) by reflexivity.
  destruct (Rle_dec 0 (Vds m n false)) as [H|H].
  - destruct (V false) as (V1 & V2 & V3).
    rewrite (drain_current_V m t n false H). rewrite (drain_current_V (opposite m) t (flip n) false); [|rewrite V1; exact H].
    rewrite V1, V2, V3, Lm, Ho. ring.
  - assert (H' : 0 <= Vds m n true) by (unfold Vds in *; lra). destruct (V true) as (V1 & V2 & V3).
    rewrite (drain_current_V m t n true H'). rewrite (drain_current_V (opposite m) t (flip n) true); [|rewrite V1; exact H'].
    rewrite V1, V2, V3, Lm, Ho. ring.
Qed.
Print Assumptions C74_mirror.

(* at the nominal temperature and with the bulk at the source, the threshold is the VTO of the card, with its sign, and the
   factor of the current is KP * W / L *)
Theorem C74_card : forall c m z t e n s d v k,
  precalc c = Some m -> c_vto c = Some v -> c_kp c = Some k -> temperature m z (c_tnom c) = Some t -> 0 < phi m ->
  in_range e n -> initial_step e = false -> do_tr m t e n s = Some d -> evaluated_at m n d -> nb n = source m n ->
  probe_vth m d = v /\ t_beta t = k * w_eff m z / l_eff m z /\ t_phi t = phi m.
Proof.
  intros c m z t e n s d v k Hm Hv Hk Ht Hp Hr Hi Hd He Hb.
  destruct (precalc_facts c m Hm) as (P1 & P2 & P3 & _ & P5 & _ & _ & P8 & _).
  destruct (temperature_nominal m z (c_tnom c) t (eq_sym P2) P3 Ht) as (T1 & T2 & T3).
  assert (Hoff : bulk_off m n) by (unfold bulk_off; rewrite Hb; lra).
  destruct (C74_current m t e n s d Hr Hi Hd He Hoff ltac:(lra)) as (_ & _ & ->).
  rewrite Hb. unfold threshold. rewrite T1, T2, T3, (P5 v Hv), (P8 k Hk), P1.
  replace (phi m - sgn (c_polarity c) * (source m n - source m n)) with (phi m) by ring.
  split; [|auto]. assert (HP := sgn_sq (c_polarity c)). set (p := sgn (c_polarity c)) in *.
  replace (p * (v * p + gamma m * (sqrt (phi m) - sqrt (phi m)) + (egap m - egap m) / 2 + (phi m - phi m) / 2)) with (p * p * v) by field. rewrite HP. ring.
Qed.
Print Assumptions C74_card.

(* the gate capacitances of every device that was evaluated have a value between the overlap and the overlap with the whole
   (bulk) or two thirds (source and drain) of the oxide *)
Theorem C74_capacitances : forall m z t e n s d,
  do_tr m t e n s = Some d -> flag40 e = false -> 0 < phi m -> 0 <= cgate m z ->
  exists gs gd gb, cap_gs m z d = Some gs /\ cap_gd m z d = Some gd /\ cap_gb m z d = Some gb /\
    cgso_m m * w_eff m z <= gs <= cgso_m m * w_eff m z + 2 / 3 * cgate m z /\
    cgdo_m m * w_eff m z <= gd <= cgdo_m m * w_eff m z + 2 / 3 * cgate m z /\
    cgbo_m m * l_eff m z <= gb <= cgbo_m m * l_eff m z + cgate m z.
Proof.
  intros m z t e n s d Hd Hf Hp Hc.
  assert (Hs := do_tr_sane _ _ _ _ _ _ Hd Hf). destruct (C74_reachable _ _ _ _ _ _ Hd) as [R1 R2].
  destruct (cap_gb_bound m z d Hp Hc) as (gb & B1 & B2).
  destruct (cap_drain_bound m z d Hs Hc) as (cd & C1 & C2). destruct (cap_source_bound m z d Hs Hp Hc) as (cs & S1 & S2).
  unfold cap_gs, cap_gd. destruct (Z.eqb (cmodel m) 0).
  - exists (0 + cgso_m m * w_eff m z), (0 + cgdo_m m * w_eff m z), gb. repeat split; auto; lra.
  - destruct (Rle_dec 0 (vdsat d)); [|contradiction]. destruct (Rle_dec 0 (vds d)); [|contradiction].
    rewrite C1, S1. destruct (reversed d); cbn [bind].
    + exists (cd + cgso_m m * w_eff m z), (cs + cgdo_m m * w_eff m z), gb. repeat split; auto; lra.
    + exists (cs + cgso_m m * w_eff m z), (cd + cgdo_m m * w_eff m z), gb. repeat split; auto; lra.
Qed.
Print Assumptions C74_capacitances.

(* in the three plain cases the capacitances are the textbook ones: off, all to the bulk; saturated, two thirds to the source;
   without a drain voltage, half to each side *)
Theorem C74_capacitance_values : forall m z t e n s d,
  do_tr m t e n s = Some d -> cmodel m = 3%Z -> 0 < phi m ->
  (vgst d < - phi m -> cap_gs m z d = Some (0 + cgso_m m * w_eff m z) /\ cap_gd m z d = Some (0 + cgdo_m m * w_eff m z) /\ cap_gb m z d = Some (cgbo_m m * l_eff m z + cgate m z)) /\
  (0 < vgst d <= vds d -> exists a b, a = 2 / 3 * cgate m z /\ b = 0 /\
     cap_gs m z d = Some ((if reversed d then b else a) + cgso_m m * w_eff m z) /\ cap_gd m z d = Some ((if reversed d then a else b) + cgdo_m m * w_eff m z) /\
     cap_gb m z d = Some (cgbo_m m * l_eff m z)) /\
  (0.1 < vgst d -> vds d = 0 -> exists a b, a = cgate m z / 2 /\ b = cgate m z / 2 /\
     cap_gs m z d = Some (a + cgso_m m * w_eff m z) /\ cap_gd m z d = Some (b + cgdo_m m * w_eff m z) /\ cap_gb m z d = Some (cgbo_m m * l_eff m z)).
Proof.
  intros m z t e n s d Hd Hc Hp.
  destruct (C74_reachable _ _ _ _ _ _ Hd) as [R1 R2].
  assert (Hsat : vdsat d = pos (vgst d)).
  { destruct (do_tr_inv _ _ _ _ _ _ Hd) as (rv0 & ds & gs & bs & d0 & Hn & Ht & E1 & E2 & E3 & E4 & E5 & E6 & E7 & _).
    destruct (tr_eval_inv _ _ _ _ _ _ _ _ _ Ht) as (rv & ds' & gs' & bs' & sarg & dsarg & fwd & on & _ & _ & _ & _ & _ & _ & _ & _ & _ & _ & F6 & F7 & _).
    rewrite E6, E7, F6, F7. reflexivity. }
  unfold cap_gs, cap_gd, cap_gb, cap_source, cap_drain. rewrite Hc. cbn [Z.eqb Pos.eqb].
  destruct (Rle_dec 0 (vdsat d)); [|contradiction]. destruct (Rle_dec 0 (vds d)); [|contradiction].
  unfold pos in Hsat. repeat split.
  1-3: destruct (Rle_dec 0 (vgst d)); [lra|]; destruct (Rle_dec (- phi m / 2) (vgst d)); [lra|]; destruct (Rlt_dec (vgst d) (- phi m)); [|lra];
    destruct (reversed d); reflexivity.
  - intros [G1 G2]. destruct (Rlt_dec 0 (vgst d)) in Hsat; [|lra]. rewrite Hsat.
    exists (2 / 3 * cgate m z), 0. split; [reflexivity|]. split; [reflexivity|].
    destruct (Rle_dec 0 (vgst d)); [|lra]. destruct (Rle_dec (- phi m / 2) (vgst d)); [|lra]. destruct (Rlt_dec (vds d) (vgst d)); [lra|].
    destruct (Rle_dec (vgst d) 0); [lra|]. destruct (Rlt_dec (vgst d) (- phi m)); [lra|]. destruct (Rlt_dec (vgst d) 0); [lra|].
    destruct (reversed d); cbn [bind]; auto.
  - intros G1 G2. destruct (Rlt_dec 0 (vgst d)) in Hsat; [|lra]. rewrite Hsat, G2.
    exists (cgate m z / 2), (cgate m z / 2). split; [reflexivity|]. split; [reflexivity|].
    destruct (Rle_dec 0 (vgst d)); [|lra]. destruct (Rle_dec (- phi m / 2) (vgst d)); [|lra]. destruct (Rlt_dec 0 (vgst d)); [|lra].
    destruct (Rle_dec (vgst d) 0); [lra|]. destruct (Rlt_dec (vgst d) (- phi m)); [lra|]. destruct (Rlt_dec (vgst d) 0); [lra|].
    destruct (Rle_dec (vgst d) 0.1); [lra|].
    rewrite !fdiv_some by (apply Rgt_not_eq; nra). cbn [bind].
    assert (A : forall g, 2 / 3 * g * (1 - (vgst d - 0) * (vgst d - 0) / ((2 * (vgst d - 0) - (0 - 0)) * (2 * (vgst d - 0) - (0 - 0)))) = g / 2).
    { intros g. field. lra. }
    rewrite A. destruct (reversed d); auto.
Qed.
Print Assumptions C74_capacitance_values.

(* whatever voltages it was evaluated at, what the device puts in the circuit is the tangent there *)
Theorem C74_tangent : forall m t e n s d n', do_tr m t e n s = Some d ->
  let p := sgn (polarity m) in
  tr_amps d n' = ids d + (if reversed d then gds d * ((nd n' - ns n') + p * vds d) + probe_gm d * ((nd n' - ng n') + p * vgs d) + probe_gmb d * ((nd n' - nb n') + p * vbs d)
                          else gds d * ((nd n' - ns n') - p * vds d) + probe_gm d * ((ng n' - ns n') - p * vgs d) + probe_gmb d * ((nb n' - ns n') - p * vbs d)) /\
  (if reversed d then gmf d = 0 /\ gmbf d = 0 else gmr d = 0 /\ gmbr d = 0).
Proof.
  intros m t e n s d n' Hd p.
  destruct (do_tr_inv _ _ _ _ _ _ Hd) as (rv0 & ds & gs & bs & d0 & Hn & Ht & E1 & E2 & E3 & E4 & E5 & E6 & E7 & E8 & E9 & E10 & E11 & E12 & E13 & E14).
  destruct (tr_eval_inv _ _ _ _ _ _ _ _ _ Ht) as (rv & ds' & gs' & bs' & sarg & dsarg & fwd & on & _ & _ & _ & _ & _ & F1 & _ & _ & _ & _ & _ & _ & _ & F9 & F10).
  unfold tr_amps, values, ports, probe_gm, probe_gmb. cbn [fst snd port_sum]. rewrite E14. rewrite E1, E2, E3, E4, E8, E9, E10, E11, E12, E13, F1. fold p. cbv zeta in F10.
  destruct rv; destruct F10 as (_ & G2 & G3 & G4 & G5).
  - rewrite G2, G3. split; [ring | auto].
  - rewrite G4, G5. split; [ring | auto].
Qed.
Print Assumptions C74_tangent.

(* ---- the parameters ---- *)
(* with an oxide and a doping and nothing else given, all electrical parameters follow from the physical ones: everything in
   centimetres on the card, in metres inside *)
Theorem C74_parameters : forall c m tox n,
  precalc c = Some m -> c_tox c = Some tox -> 0 < tox -> c_nsub_cm c = Some n -> 1.45e10 <= n ->
  c_vto c = None -> c_gamma c = None -> c_phi c = None -> c_kp c = None ->
  cox m = 3.9 * 8.854214871e-12 / tox /\
  kp m = c_uo_cm c / 10000 * cox m /\
  phi m = Rmax 0.1 (2 * (P_K / P_Q) * (c_tnom c + 273.15) * ln (n / 1.45e10)) /\
  gamma m * cox m = sqrt (2 * 11.7 * 8.854214871e-12 * P_Q * (n * 1e6)) /\
  sgn (c_polarity c) * vto m = sgn (c_polarity c) * (phi m + gamma m * sqrt (phi m)) - P_Q * (c_nss_cm c * 10000) / cox m
    + (if Z.eqb (c_tpg c) 0 then - 0.05 - (egap m + sgn (c_polarity c) * phi m) / 2
       else - sgn (c_polarity c) * (IZR (Z.sgn (c_tpg c)) * egap m + phi m) / 2).
Proof.
  intros c m tox n Hm Htox Hpos Hn Hni Hv Hg Hp Hk. unfold precalc in Hm.
  destruct (egap_at (c_tnom c + P_CELSIUS0)) as [eg|]; cbn [bind] in Hm; [|discriminate].
  unfold tox_of in Hm. rewrite Htox in Hm. destruct (Rle_dec tox 0); [lra|].
  unfold nsub_of in Hm. rewrite Hn in Hm. destruct (Rlt_dec (n * ICM2M3) NI) as [Hlt|_]; [unfold ICM2M3, NI in Hlt; lra|].
  unfold vto_raw_of in Hm. rewrite Hv, Hg, Hp, Hk in Hm. cbn [given] in Hm.
  unfold phi_calc in Hm. destruct (flog (n * ICM2M3 / NI)) as [l|] eqn:El; cbn [bind] in Hm; [|discriminate].
  apply flog_inv in El. destruct El as [_ El].
  set (ph := if Rlt_dec (2 * P_K_Q * (c_tnom c + P_CELSIUS0) * l) 0.1 then 0.1 else 2 * P_K_Q * (c_tnom c + P_CELSIUS0) * l) in *.
  unfold gamma_calc in Hm. destruct (fsqrt (2 * P_EPS_SI * P_Q * (n * ICM2M3))) as [s|] eqn:Es; cbn [bind] in Hm; [|discriminate].
  apply fsqrt_inv in Es. destruct Es as [_ Es].
  assert (Hcox : 0 < P_EPS_OX / tox) by (apply Rdiv_lt_0_compat; [unfold P_EPS_OX, P_EPS0; lra | assumption]).
  rewrite fdiv_some in Hm by lra. cbn [bind] in Hm.
  unfold vto_calc in Hm. rewrite fdiv_some in Hm by lra. cbn [bind] in Hm.
  destruct (fsqrt ph) as [sp|] eqn:Ep; cbn [bind] in Hm; [|discriminate]. apply fsqrt_inv in Ep. destruct Ep as [_ Ep].
  inversion Hm; subst m; clear Hm. cbn [cox kp phi gamma vto egap dflt].
  assert (HP := sgn_sq (c_polarity c)). set (p := sgn (c_polarity c)) in *.
  split; [reflexivity|]. split; [unfold CM2M2; lra|]. split; [|split].
  - unfold ph. rewrite El. replace (n * ICM2M3 / NI) with (n / 1.45e10) by (unfold ICM2M3, NI; lra). unfold P_CELSIUS0, P_K_Q, Rmax.
    set (w := 2 * (P_K / P_Q) * (c_tnom c + 273.15) * ln (n / 1.45e10)). destruct (Rlt_dec w 0.1); destruct (Rle_dec 0.1 w); lra.
  - rewrite Es. replace (2 * 11.7 * 8.854214871e-12 * P_Q * (n * 1e6)) with (2 * P_EPS_SI * P_Q * (n * ICM2M3)) by (unfold P_EPS_SI, P_EPS0, ICM2M3; ring).
    set (cx := P_EPS_OX / tox) in *. field. lra.
  - rewrite Ep. unfold ICM2M2. set (cx := P_EPS_OX / tox) in *. set (q := P_Q * (c_nss_cm c * 10000)).
    assert (TP : Z.eqb (tpg_of (c_tpg c)) 0 = Z.eqb (c_tpg c) 0 /\ tpg_of (c_tpg c) = Z.sgn (c_tpg c)) by (unfold tpg_of; destruct (c_tpg c); split; reflexivity).
    destruct TP as [-> ->].
    replace (p * P_Q * (c_nss_cm c * 1e4) / cx) with (p * (q / cx)) by (unfold q; replace 1e4 with 10000 by lra; field; lra).
    set (qc := q / cx) in *. set (G := s / cx).
    destruct (Z.eqb (c_tpg c) 0).
    + replace (p * (p * (- 0.05 - (eg + p * ph) / 2) - p * qc + ph + G * sqrt ph)) with (p * p * (- 0.05 - (eg + p * ph) / 2) - p * p * qc + p * (ph + G * sqrt ph)) by ring.
      rewrite HP. ring.
    + replace (p * (- (IZR (Z.sgn (c_tpg c)) * eg + ph) / 2 - p * qc + ph + G * sqrt ph)) with (- p * (IZR (Z.sgn (c_tpg c)) * eg + ph) / 2 - p * p * qc + p * (ph + G * sqrt ph)) by field.
      rewrite HP. ring.
Qed.
Print Assumptions C74_parameters.

(* the surface potential and the current factor at a temperature; to go from one temperature to a second by way of a third
   is the same as to go at once *)
Definition at_nominal (m : model) (tk ph k eg : R) : model :=
  Model (polarity m) (vto m) (gamma m) ph k (lambda m) (cox m) tk eg (cmodel m)
    (lmlt m) (wmlt m) (xl m) (xw m) (ld m) (del m) (wd m) (cgso_m m) (cgdo_m m) (cgbo_m m).
Lemma temperature_inv m z tc t : temperature m z tc = Some t -> 0 < tnom_k m ->
  let T := tc + 273.15 in let r := T / tnom_k m in
  0 < r /\ l_eff m z <> 0 /\ egap_at T = Some (t_egap t) /\
  t_phi t = r * phi m - 3 * (P_K / P_Q) * T * ln r - (r * egap m - t_egap t) /\ t_beta t * (r * sqrt r) = kp m * w_eff m z / l_eff m z.
Proof.
  intros H Hk T r. unfold temperature in H. change (tc + P_CELSIUS0) with T in H. rewrite fdiv_some in H by lra. cbn [bind] in H. fold r in H.
  destruct (fsqrt r) as [sr|] eqn:E1; cbn [bind] in H; [|discriminate]. apply fsqrt_inv in E1. destruct E1 as [_ ->].
  destruct (egap_at T) as [eg|] eqn:E2; cbn [bind] in H; [|discriminate].
  destruct (fdiv (egap m * r - eg) (2 * (T * P_K))) as [arg|] eqn:E3; cbn [bind] in H; [|discriminate]. apply fdiv_inv in E3. destruct E3 as [N3 ->].
  destruct (flog r) as [l|] eqn:E4; cbn [bind] in H; [|discriminate]. apply flog_inv in E4. destruct E4 as [Hr ->].
  destruct (fdiv (kp m) (r * sqrt r)) as [b|] eqn:E5; cbn [bind] in H; [|discriminate]. apply fdiv_inv in E5. destruct E5 as [N5 ->].
  destruct (fdiv (kp m / (r * sqrt r) * w_eff m z) (l_eff m z)) as [be|] eqn:E6; cbn [bind] in H; [|discriminate]. apply fdiv_inv in E6. destruct E6 as [N6 ->].
  inversion H; subst t; clear H. cbn [t_phi t_beta t_egap].
  assert (HQ : P_Q <> 0) by (unfold P_Q; lra). assert (HK : P_K <> 0) by (unfold P_K; lra).
  assert (HT : T <> 0) by (intros E; apply N3; rewrite E; ring).
  repeat split; auto.
  - replace 1.5 with (3 / 2) by lra. unfold P_K_Q. field. auto.
  - assert (sqrt r <> 0) by (intros E; apply N5; rewrite E; ring). assert (r <> 0) by lra. field. auto.
Qed.

Theorem C74_temperature : forall m z tc t, temperature m z tc = Some t -> 0 < tnom_k m ->
  let T := tc + 273.15 in let r := T / tnom_k m in
  (t_phi t = r * phi m - 3 * (P_K / P_Q) * T * ln r - (r * egap m - t_egap t) /\ t_egap t = 1.16 - 7.02e-4 * (T * T) / (T + 1108) /\
   t_beta t = kp m * w_eff m z / l_eff m z / (r * sqrt r)) /\
  forall tc' t' t'', 
  temperature m z tc' = Some t' -> temperature (at_nominal m T (t_phi t) (t_beta t * l_eff m z / w_eff m z) (t_egap t)) z tc' = Some t'' -> w_eff m z <> 0 ->
  t_phi t'' = t_phi t' /\ t_beta t'' = t_beta t' /\ t_egap t'' = t_egap t'.
Proof.
  intros m z tc t H Hk T r. destruct (temperature_inv _ _ _ _ H Hk) as (A1 & A2 & A3 & A4 & A5). cbv zeta in *. fold T in A1, A3, A4, A5. fold r in A1, A4, A5.
  assert (Sr : 0 < sqrt r) by (apply sqrt_lt_R0; assumption).
  split.
  - split; [assumption|]. split.
    + unfold egap_at in A3. destruct (fdiv (7.02e-4 * T * T) (T + 1108)) as [q|] eqn:E; cbn [bind] in A3; [|discriminate]. apply fdiv_inv in E. destruct E as [N E].
      injection A3 as <-. rewrite E. replace (7.02e-4 * T * T) with (7.02e-4 * (T * T)) by ring. reflexivity.
    + rewrite <- A5. field. split; lra.
  - intros tc' t' t'' H' H'' Hw. assert (HT : 0 < T). { replace T with (r * tnom_k m) by (unfold r; field; lra). apply Rmult_lt_0_compat; assumption. }
    destruct (temperature_inv _ _ _ _ H' Hk) as (B1 & B2 & B3 & B4 & B5).
    destruct (temperature_inv _ _ _ _ H'' HT) as (C1 & C2 & C3 & C4 & C5). cbv zeta in *.
    change (tnom_k (at_nominal _ _ _ _ _)) with T in *. change (phi (at_nominal _ _ _ _ _)) with (t_phi t) in *. change (egap (at_nominal _ _ _ _ _)) with (t_egap t) in *.
    change (kp (at_nominal m T (t_phi t) (t_beta t * l_eff m z / w_eff m z) (t_egap t))) with (t_beta t * l_eff m z / w_eff m z) in *.
    change (w_eff (at_nominal m T (t_phi t) (t_beta t * l_eff m z / w_eff m z) (t_egap t)) z) with (w_eff m z) in *.
    change (l_eff (at_nominal m T (t_phi t) (t_beta t * l_eff m z / w_eff m z) (t_egap t)) z) with (l_eff m z) in *.
    set (T' := tc' + 273.15) in *. set (r' := T' / tnom_k m) in *. set (q := T' / T) in *.
    assert (Er : r' = q * r) by (unfold r', q, r; field; lra).
    assert (Eg : t_egap t'' = t_egap t') by congruence.
    assert (Eln : ln r' = ln q + ln r) by (rewrite Er; apply ln_mult; assumption).
    assert (Esq : sqrt r' = sqrt q * sqrt r) by (rewrite Er; apply sqrt_mult; lra).
    assert (Sq : 0 < sqrt q) by (apply sqrt_lt_R0; assumption).
    split; [|split; [|assumption]].
    + rewrite B4, C4, Eg, A4, Eln, Er. assert (ET : T' = q * T) by (unfold q; field; lra). rewrite ET. ring.
    + rewrite Esq, Er in B5.
      assert (X : t_beta t'' * (q * sqrt q) = t_beta t) by (rewrite C5; field; auto).
      assert (Y : t_beta t'' * (q * sqrt q) * (r * sqrt r) = t_beta t' * (q * sqrt q) * (r * sqrt r)).
      { rewrite X, A5, <- B5. ring. }
      apply Rmult_eq_reg_r in Y; [|apply Rgt_not_eq, Rmult_lt_0_compat; assumption].
      apply Rmult_eq_reg_r in Y; [assumption|apply Rgt_not_eq, Rmult_lt_0_compat; assumption].
Qed.
Print Assumptions C74_temperature.

(* ---- where the claims stop ---- *)
(* KP=2, VTO=0, GAMMA=g, PHI=1 and an oxide, at 27 degrees; L = W = 1 *)
Definition ex_card (p : polarity_t) (g : R) : card := Card p (Some 0) (Some g) (Some 1) None (Some 1e-7) None 0 600 1 (Some 2) 27 0 1 1 0 0 0 0 0 0 0 0.
Definition ex_size : size := Size (Some 1) (Some 1) 1 1.
Definition ex_env : env := Env (-10) 10 false false false.

Lemma ex_model p g : exists m t, precalc (ex_card p g) = Some m /\ temperature m ex_size 27 = Some t /\ polarity m = p /\ vto m = 0 /\ gamma m = g /\ phi m = 1 /\ lam m = 0 /\ cmodel m = 3%Z /\
  cgate m ex_size = P_EPS_OX / 1e-7 /\ cgso_m m = 0 /\ t_phi t = 1 /\ t_beta t = 2 /\ egap m = t_egap t.
Proof.
  assert (Hpc : exists m, precalc (ex_card p g) = Some m /\ cgate m ex_size = P_EPS_OX / 1e-7 /\ w_eff m ex_size = 1 /\ l_eff m ex_size = 1 /\ cmodel m = 3%Z /\ cgso_m m = 0).
  { unfold precalc, egap_at. cbn [ex_card c_tnom c_tox c_cmodel]. rewrite fdiv_some by (unfold P_CELSIUS0; lra). cbn [bind].
    unfold tox_of. cbn [ex_card c_tox]. destruct (Rle_dec 1e-7 0); [lra|]. unfold nsub_of. cbn [ex_card c_nsub_cm].
    eexists. split; [reflexivity|]. unfold cgate, w_eff, l_eff. cbn. repeat split; try lra. }
  destruct Hpc as (m & Hm & Hc & Hw & Hl & Hcm & Hov).
  destruct (precalc_facts _ _ Hm) as (P1 & P2 & P3 & P4 & P5 & P6 & P7 & P8 & _).
  assert (Hk : 27 + P_CELSIUS0 = tnom_k m) by (rewrite P2; reflexivity).
  destruct (temperature_nominal_total m ex_size 27 Hk P3) as [t Ht].
  { rewrite <- Hk. unfold P_CELSIUS0. lra. }
  { rewrite Hl. lra. }
  destruct (temperature_nominal m ex_size 27 t Hk P3 Ht) as (T1 & T2 & T3).
  exists m, t. split; [assumption|]. split; [assumption|].
  split; [exact P1|]. split; [rewrite (P5 0 eq_refl); ring|]. split; [apply (P6 g eq_refl)|]. split; [apply (P7 1 eq_refl)|].
  split; [unfold lam; rewrite P4; reflexivity|]. split; [assumption|]. split; [assumption|]. split; [assumption|].
  split; [rewrite T1; apply (P7 1 eq_refl)|]. split; [rewrite T3, Hw, Hl, (P8 2 eq_refl); field | symmetry; assumption].
Qed.

(* with the bulk forward biased the current is that of the bulk at 0 with the bulk slope added: the probe ids is not what
   the device carries *)
Theorem C74_forward_bulk_refuted : exists c m z t e n s d,
  precalc c = Some m /\ temperature m z (c_tnom c) = Some t /\ in_range e n /\ initial_step e = false /\ do_tr m t e n s = Some d /\ evaluated_at m n d /\
  probe_ids m d = 1 /\ tr_amps d n = 1.5.
Proof.
  destruct (ex_model pN 1) as (m & t & Hm & Ht & Hpol & Hvto & Hg & Hphi & Hlam & _ & _ & _ & Tp & Tb & Te).
  set (n := Nodes 2 1 0 0.5).
  assert (Hr : in_range ex_env n) by (unfold in_range, ex_env, n; cbn; lra).
  assert (V1 : Vds m n false = 2) by (unfold Vds, n; rewrite Hpol; cbn; ring).
  assert (V2 : Vgs m n false = 1) by (unfold Vgs, n; rewrite Hpol; cbn; ring).
  assert (V3 : Vbs m n false = 0.5) by (unfold Vbs, n; rewrite Hpol; cbn; ring).
  destruct (stays m t ex_env n false 0 0 Hr eq_refl eq_refl) as (d & Hd & He & Hrv & Hds & Hgst & Hbs & _); [lra | lra | lra |].
  assert (Hs : fmin 0.5 0 = 0) by (unfold fmin; destruct (Rlt_dec 0 0.5); lra).
  rewrite V3, Hs in *.
  assert (Hth : threshold m t 0 = 0).
  { unfold threshold. rewrite Hvto, Hphi, Tp, Te. rewrite Rminus_0_r. field. }
  rewrite V1 in Hds. rewrite V2, Hth in Hgst.
  exists (ex_card pN 1), m, ex_size, t, ex_env, n, (start false (Vds m n false) (Vgs m n false) 0 0), d.
  split; [assumption|]. split; [assumption|]. split; [assumption|]. split; [reflexivity|]. split; [assumption|]. split; [assumption|].
  destruct (C74_tangent _ _ _ _ _ _ n Hd) as [T _]. cbv zeta in T. rewrite Hrv in T.
  destruct (do_tr_inv _ _ _ _ _ _ Hd) as (rv0 & ds & gs & bs & d0 & Hn & Hv & E1 & E2 & E3 & E4 & E5 & E6 & E7 & E8 & E9 & E10 & E11 & E12 & E13 & E14).
  destruct (tr_eval_inv _ _ _ _ _ _ _ _ _ Hv) as (rv & ds' & gs' & bs' & sarg & dsarg & fwd & on & _ & Hb & _ & _ & _ & F1 & F2 & F3 & F4 & F5 & F6 & F7 & F8 & F9 & F10).
  rewrite E1, F1 in Hrv. subst rv. cbv zeta in F10. rewrite <- F6, <- E6, Hgst in F10. rewrite <- F2, <- E2, Hds in F10.
  rewrite <- F4, <- E4, Hbs in Hb. rewrite bulk_off_value in Hb by lra. injection Hb as B1 B2 B3. rewrite Tp in B2.
  rewrite Rminus_0_r, sqrt_1 in B2.
  destruct F10 as (G1 & G2 & G3 & _ & _). rewrite Hlam, Tb in G1, G2, G3. rewrite Hg, <- B2 in G3.
  assert (A1 : pos (1 - 0) = 1) by (unfold pos; destruct (Rlt_dec 0 (1 - 0)); lra).
  assert (A2 : pos (1 - 0 - 2) = 0) by (unfold pos; destruct (Rlt_dec 0 (1 - 0 - 2)); lra).
  unfold sqpos in G1. rewrite A1, A2 in *.
  assert (I : ids d = 1) by (rewrite E8, G1, Hpol; cbn; lra).
  assert (GB : gmbf d = 1) by (rewrite E12, G3; lra).
  apply evaluated_at_V in He. rewrite E1, F1 in He. destruct He as [He1 He2].
  split.
  - unfold probe_ids. rewrite E1, F1, Hpol, I. cbn. ring.
  - rewrite T. unfold probe_gm, probe_gmb. rewrite E1, F1. rewrite Hpol, I, GB, Hbs, Hds, He2, V2. unfold n. cbn. lra.
Qed.
Print Assumptions C74_forward_bulk_refuted.

(* without a drain voltage and just above the threshold, the gate to source capacitance depends on the way round the device
   was before *)
Theorem C74_cap_history_refuted : exists c m z t e n s1 s2 d1 d2 c1 c2,
  precalc c = Some m /\ temperature m z (c_tnom c) = Some t /\ in_range e n /\ initial_step e = false /\
  do_tr m t e n s1 = Some d1 /\ do_tr m t e n s2 = Some d2 /\ evaluated_at m n d1 /\ evaluated_at m n d2 /\
  cap_gs m z d1 = Some c1 /\ cap_gs m z d2 = Some c2 /\ 0 < c1 /\ c2 = c1 / 2.
Proof.
  destruct (ex_model pN 0) as (m & t & Hm & Ht & Hpol & Hvto & Hg & Hphi & Hlam & Hcm & Hgate & Hov & Tp & Tb & Te).
  set (n := Nodes 0 0.05 0 0).
  assert (Hr : in_range ex_env n) by (unfold in_range, ex_env, n; cbn; lra).
  assert (V1 : forall rv, Vds m n rv = 0) by (intros []; unfold Vds, n; rewrite Hpol; cbn; ring).
  assert (V2 : forall rv, Vgs m n rv = 0.05) by (intros []; unfold Vgs, n; rewrite Hpol; cbn; lra).
  assert (V3 : forall rv, Vbs m n rv = 0) by (intros []; unfold Vbs, n; rewrite Hpol; cbn; ring).
  assert (Hth : threshold m t (fmin 0 0) = 0).
  { rewrite fmin_neg by lra. unfold threshold. rewrite Hvto, Hphi, Tp, Te. rewrite Rminus_0_r. field. }
  destruct (stays m t ex_env n false 0 0 Hr eq_refl eq_refl) as (d1 & Hd1 & He1 & Hr1 & Hs1 & Hg1 & Hb1 & Ha1); [lra | lra | rewrite V1; lra |].
  destruct (stays m t ex_env n true 0 0 Hr eq_refl eq_refl) as (d2 & Hd2 & He2 & Hr2 & Hs2 & Hg2 & Hb2 & Ha2); [lra | lra | rewrite V1; lra |].
  rewrite V1 in Hs1, Hs2. rewrite V2, V3, Hth in Hg1, Hg2.
  assert (Hps : pos (0.05 - 0) = 0.05) by (unfold pos; destruct (Rlt_dec 0 (0.05 - 0)); lra).
  rewrite Hg1, Hps in Ha1. rewrite Hg2, Hps in Ha2.
  set (G := cgate m ex_size) in *.
  exists (ex_card pN 0), m, ex_size, t, ex_env, n, (start false (Vds m n false) (Vgs m n false) 0 0), (start true (Vds m n true) (Vgs m n true) 0 0), d1, d2, (G / 2), (G / 4).
  assert (HG : 0 < G) by (rewrite Hgate; unfold P_EPS_OX, P_EPS0; lra).
  repeat (split; [assumption || reflexivity|]).
  unfold cap_gs, cap_drain, cap_source. rewrite Hcm. cbn [Z.eqb Pos.eqb]. rewrite Hr1, Hr2, Hs1, Hs2, Ha1, Ha2, Hg1, Hg2, Hphi, Hov. fold G.
  destruct (Rle_dec 0 0.05); [|lra]. destruct (Rle_dec 0 0); [|lra]. destruct (Rle_dec (-(1) / 2) (0.05 - 0)); [|lra].
  destruct (Rlt_dec 0 0.05); [|lra]. destruct (Rle_dec (0.05 - 0) 0); [lra|]. destruct (Rle_dec 0 (0.05 - 0)); [|lra]. destruct (Rle_dec (0.05 - 0) 0.1); [|lra].
  rewrite !fdiv_some by (apply Rgt_not_eq; lra). cbn [bind].
  split; [f_equal; lra|]. split; [f_equal; lra|]. split; lra.
Qed.
Print Assumptions C74_cap_history_refuted.

(* half PHI below the threshold the gate to source capacitance jumps *)
Theorem C74_cap_jump_refuted : exists c m z t e g, 0 < g /\ precalc c = Some m /\ temperature m z (c_tnom c) = Some t /\ initial_step e = false /\
  forall del, 0 < del < 1 -> exists n1 n2 s1 s2 d1 d2 c1 c2,
    in_range e n1 /\ in_range e n2 /\ nd n1 = nd n2 /\ ns n1 = ns n2 /\ nb n1 = nb n2 /\ Rabs (ng n1 - ng n2) < del /\
    do_tr m t e n1 s1 = Some d1 /\ do_tr m t e n2 s2 = Some d2 /\ evaluated_at m n1 d1 /\ evaluated_at m n2 d2 /\
    cap_gs m z d1 = Some c1 /\ cap_gs m z d2 = Some c2 /\ c1 = c2 + g.
Proof.
  destruct (ex_model pN 0) as (m & t & Hm & Ht & Hpol & Hvto & Hg & Hphi & Hlam & Hcm & Hgate & Hov & Tp & Tb & Te).
  set (G := cgate m ex_size) in *. assert (HG : 0 < G) by (rewrite Hgate; unfold P_EPS_OX, P_EPS0; lra).
  exists (ex_card pN 0), m, ex_size, t, ex_env, (G / 6). split; [lra|]. split; [assumption|]. split; [assumption|]. split; [reflexivity|].
  intros del Hdel. set (n1 := Nodes 1 (-0.5) 0 0). set (n2 := Nodes 1 (-0.5 - del / 2) 0 0).
  assert (Hr1 : in_range ex_env n1) by (unfold in_range, ex_env, n1; cbn; lra).
  assert (Hr2 : in_range ex_env n2) by (unfold in_range, ex_env, n2; cbn; lra).
  assert (Hth : threshold m t (fmin 0 0) = 0).
  { rewrite fmin_neg by lra. unfold threshold. rewrite Hvto, Hphi, Tp, Te. rewrite Rminus_0_r. field. }
  assert (A1 : Vds m n1 false = 1 /\ Vgs m n1 false = -0.5 /\ Vbs m n1 false = 0) by (unfold Vds, Vgs, Vbs, n1; rewrite Hpol; cbn; repeat split; lra).
  assert (A2 : Vds m n2 false = 1 /\ Vgs m n2 false = -0.5 - del / 2 /\ Vbs m n2 false = 0) by (unfold Vds, Vgs, Vbs, n2; rewrite Hpol; cbn; repeat split; lra).
  destruct A1 as (A11 & A12 & A13). destruct A2 as (A21 & A22 & A23).
  destruct (stays m t ex_env n1 false 0 0 Hr1 eq_refl eq_refl) as (d1 & Hd1 & He1 & Hv1 & Hs1 & Hg1 & Hb1 & Ha1); [lra | lra | lra |].
  destruct (stays m t ex_env n2 false 0 0 Hr2 eq_refl eq_refl) as (d2 & Hd2 & He2 & Hv2 & Hs2 & Hg2 & Hb2 & Ha2); [lra | lra | lra |].
  rewrite A11 in Hs1. rewrite A21 in Hs2. rewrite A12, A13, Hth in Hg1. rewrite A22, A23, Hth in Hg2.
  rewrite Hg1 in Ha1. rewrite Hg2 in Ha2. unfold pos in Ha1, Ha2.
  destruct (Rlt_dec 0 (-0.5 - 0)) in Ha1; [lra|]. destruct (Rlt_dec 0 (-0.5 - del / 2 - 0)) in Ha2; [lra|].
  exists n1, n2, (start false (Vds m n1 false) (Vgs m n1 false) 0 0), (start false (Vds m n2 false) (Vgs m n2 false) 0 0), d1, d2, (G / 6), 0.
  repeat (split; [assumption || reflexivity|]).
  split. { unfold n1, n2. cbn. replace (-0.5 - (-0.5 - del / 2)) with (del / 2) by ring. rewrite Rabs_pos_eq; lra. }
  repeat (split; [assumption || reflexivity|]).
  unfold cap_gs, cap_source. rewrite Hcm. cbn [Z.eqb Pos.eqb]. rewrite Hv1, Hv2, Hs1, Hs2, Ha1, Ha2, Hg1, Hg2, Hphi, Hov. fold G.
  destruct (Rle_dec 0 0); [|lra]. destruct (Rle_dec 0 1); [|lra]. destruct (Rle_dec (-(1) / 2) (-0.5 - 0)); [|lra]. destruct (Rle_dec (-(1) / 2) (-0.5 - del / 2 - 0)); [lra|].
  destruct (Rlt_dec 1 0); [lra|]. cbn [bind]. destruct (Rle_dec (-0.5 - 0) 0); [|lra]. rewrite fdiv_some by lra. cbn [bind].
  split; [f_equal; lra|]. split; [f_equal; lra | lra].
Qed.
Print Assumptions C74_cap_jump_refuted.

(* with the default parameters a device at 327 degrees has no current at all: the surface potential at that temperature is
   negative and its square root is taken *)
Definition plain : card := Card pN None None None None None None 0 600 1 None 27 0 1 1 0 0 0 0 0 0 0 0.
Theorem C74_hot_refuted : exists m t, precalc plain = Some m /\ temperature m ex_size 327.15 = Some t /\ do_tr m t ex_env (Nodes 1 1 0 0) dev0 = None.
Proof.
  assert (Hpc : exists m, precalc plain = Some m /\ w_eff m ex_size = 1 /\ l_eff m ex_size = 1 /\ phi m = 0.6 /\ tnom_k m = 300.15 /\ egap m = 1.16 - 7.02e-4 * 300.15 * 300.15 / (300.15 + 1108) /\ kp m = 2e-5 /\ polarity m = pN).
  { unfold precalc, egap_at. cbn [plain c_tnom c_tox c_cmodel]. rewrite fdiv_some by (unfold P_CELSIUS0; lra). cbn [bind].
    unfold tox_of. cbn [plain c_tox]. eexists. split; [reflexivity|]. unfold w_eff, l_eff. cbn. unfold P_CELSIUS0. repeat split; lra. }
  destruct Hpc as (m & Hm & Hw & Hl & Hphi & Hk & Heg & Hkp & Hpol).
  assert (Hsq : 0 < sqrt 2) by (apply sqrt_lt_R0; lra).
  assert (HK : 0 < P_K) by (unfold P_K; lra).
  exists m.
  assert (Ht : exists t, temperature m ex_size 327.15 = Some t /\ t_phi t = 1.2 - 3 * (600.3 * P_K_Q) * ln 2 - (egap m * 2 - (1.16 - 7.02e-4 * 600.3 * 600.3 / (600.3 + 1108)))).
  { unfold temperature. rewrite Hk. replace (327.15 + P_CELSIUS0) with 600.3 by (unfold P_CELSIUS0; lra).
    rewrite fdiv_some by lra. cbn [bind]. replace (600.3 / 300.15) with 2 by lra. rewrite fsqrt_some by lra. cbn [bind].
    unfold egap_at. rewrite fdiv_some by lra. cbn [bind]. rewrite fdiv_some by (apply Rgt_not_eq; lra). cbn [bind].
    unfold flog. destruct (Rlt_dec 0 2); [|lra]. cbn [bind]. rewrite fdiv_some by (apply Rgt_not_eq; lra). cbn [bind]. rewrite Hl. rewrite fdiv_some by lra. cbn [bind].
    eexists. split; [reflexivity|]. cbn [t_phi]. rewrite Hphi. unfold P_K_Q.
    set (A := egap m * 2 - (1.16 - 7.02e-4 * 600.3 * 600.3 / (600.3 + 1108))).
    assert (HQ : P_Q <> 0) by (unfold P_Q; lra). 
    assert (GE : forall T k q a, T <> 0 -> k <> 0 -> q <> 0 -> q * (a / (2 * (T * k))) = a / (2 * (T * (k / q)))) by (intros; field; auto).
    rewrite (GE 600.3 P_K P_Q A); [|lra | lra | assumption].
    assert (HV : 0 < 600.3 * (P_K / P_Q)) by (apply Rmult_lt_0_compat; [lra | apply Rdiv_lt_0_compat; [assumption | unfold P_Q; lra]]).
    set (V := 600.3 * (P_K / P_Q)) in *. clearbody V A.
    replace (-2 * V * (1.5 * ln 2 + A / (2 * V))) with (- (3 * V * ln 2) - A); [lra|].
    replace 1.5 with (3 / 2) by lra. field. lra. }
  destruct Ht as (t & Ht & Hp). exists t. split; [assumption|]. split; [assumption|].
  assert (Hln : 0 < ln 2) by (rewrite <- ln_1; apply ln_increasing; lra).
  assert (Hvt : 0 < 3 * (600.3 * P_K_Q) * ln 2).
  { apply Rmult_lt_0_compat; [|assumption]. apply Rmult_lt_0_compat; [lra|]. apply Rmult_lt_0_compat; [lra|]. unfold P_K_Q. apply Rdiv_lt_0_compat; [assumption | unfold P_Q; lra]. }
  assert (Hneg : t_phi t < 0) by (rewrite Hp, Heg; lra).
  unfold do_tr. rewrite (new_volts_in m ex_env (Nodes 1 1 0 0) dev0); [|unfold in_range, ex_env; cbn; lra | reflexivity]. cbv zeta.
  cbn [dev0 reversed ex_env tied vds vgs von].
  assert (V1 : Vds m (Nodes 1 1 0 0) false = 1) by (unfold Vds; rewrite Hpol; cbn; ring).
  assert (V3 : Vbs m (Nodes 1 1 0 0) false = 0) by (unfold Vbs; rewrite Hpol; cbn; ring).
  rewrite V1, V3, fmin_neg by lra.
  assert (L1 : fet_limit_vds 1 0 = 1).
  { unfold fet_limit_vds. destruct (Rle_dec 3.5 0); [lra|]. destruct (Rlt_dec 4 1); [lra|]. destruct (Rlt_dec 1 (-0.5)); lra. }
  rewrite L1. unfold tr_eval, reverse_if_needed. destruct (Rlt_dec 1 0); [lra|].
  unfold bulk_sqrt. destruct (Rle_dec 0 0); [|lra]. unfold fsqrt at 1. destruct (Rle_dec 0 (t_phi t - 0)); [lra|]. reflexivity.
Qed.
Print Assumptions C74_hot_refuted.

(* ---- cases ---- *)
Definition ex_nodes : nodes := Nodes 2 1 0 0.
Lemma ex_level1 m t ds gs : vto m = 0 -> phi m = 1 -> lam m = 0 -> t_phi t = 1 -> t_beta t = 2 -> egap m = t_egap t -> 0 <= ds ->
  (0 <= gs <= ds -> level1 m t ds gs 0 = gs * gs) /\ (ds <= gs -> level1 m t ds gs 0 = 2 * (gs - ds / 2) * ds).
Proof.
  intros H1 H2 H3 H4 H5 H6 H7.
  assert (Hth : threshold m t 0 = 0). { unfold threshold. rewrite H1, H2, H4, H6. rewrite Rminus_0_r. field. }
  destruct (C74_regions m t ds gs 0 H7) as (_ & A & B). rewrite Hth, Rminus_0_r in A, B. rewrite H5, H3 in A, B.
  split; intros H; [rewrite (A H) | rewrite (B H)]; lra.
Qed.

(* C74_current, C74_slopes, C74_passive, C74_card, C74_reachable, C74_tangent, C74_regions: saturated, 1 A, 2 A/V from the gate *)
Example C74_ex_saturated : exists m t s d,
  precalc (ex_card pN 1) = Some m /\ temperature m ex_size 27 = Some t /\ in_range ex_env ex_nodes /\ initial_step ex_env = false /\ do_tr m t ex_env ex_nodes s = Some d /\
  evaluated_at m ex_nodes d /\ bulk_off m ex_nodes /\ 0 < t_phi t /\ 0 <= t_beta t /\ 0 <= lam m /\ 0 <= gamma m /\ nb ex_nodes = source m ex_nodes /\
  tr_amps d ex_nodes = 1 /\ probe_vth m d = 0.
Proof.
  destruct (ex_model pN 1) as (m & t & Hm & Ht & Hpol & Hvto & Hg & Hphi & Hlam & Hcm & Hgate & Hov & Tp & Tb & Te).
  assert (Hr : in_range ex_env ex_nodes) by (unfold in_range, ex_env, ex_nodes; cbn; lra).
  assert (V1 : Vds m ex_nodes false = 2) by (unfold Vds, ex_nodes; rewrite Hpol; cbn; ring).
  assert (V2 : Vgs m ex_nodes false = 1) by (unfold Vgs, ex_nodes; rewrite Hpol; cbn; ring).
  assert (V3 : Vbs m ex_nodes false = 0) by (unfold Vbs, ex_nodes; rewrite Hpol; cbn; ring).
  destruct (stays m t ex_env ex_nodes false 0 0 Hr eq_refl eq_refl) as (d & Hd & He & _); [lra | lra | lra |].
  assert (Hsrc : source m ex_nodes = 0) by (unfold source, ex_nodes; rewrite Hpol; cbn; destruct (Rle_dec 0 (1 * (2 - 0))); lra).
  assert (Hb : bulk_off m ex_nodes) by (unfold bulk_off; rewrite Hsrc; unfold ex_nodes; cbn; lra).
  exists m, t, (start false (Vds m ex_nodes false) (Vgs m ex_nodes false) 0 0), d.
  repeat (split; [assumption || reflexivity || lra|]). split; [rewrite Hsrc; reflexivity|].
  destruct (C74_current m t ex_env ex_nodes _ d Hr eq_refl Hd He Hb) as (-> & _ & _); [lra|].
  split.
  - rewrite (drain_current_V m t ex_nodes false) by lra. rewrite V1, V2, V3, Hpol.
    destruct (ex_level1 m t 2 1) as [A _]; try assumption; try lra. rewrite A by lra. cbn. ring.
  - refine (proj1 (C74_card (ex_card pN 1) m ex_size t ex_env ex_nodes _ d 0 2 Hm eq_refl eq_refl Ht _ Hr eq_refl Hd He _)); [lra | rewrite Hsrc; reflexivity].
Qed.

(* C74_current, C74_exchange: a p channel device the other way round, in its linear region: 3 A; and exchanged *)
Example C74_ex_reversed : exists m t s d s' d' (n := Nodes 0 (-2) (-1) 0),
  precalc (ex_card pP 1) = Some m /\ temperature m ex_size 27 = Some t /\ in_range ex_env n /\ do_tr m t ex_env n s = Some d /\ evaluated_at m n d /\ bulk_off m n /\ 0 < t_phi t /\
  reversed d = true /\ do_tr m t ex_env (swap n) s' = Some d' /\ evaluated_at m (swap n) d' /\ tr_amps d n = 3 /\ tr_amps d' (swap n) = - (3).
Proof.
  destruct (ex_model pP 1) as (m & t & Hm & Ht & Hpol & Hvto & Hg & Hphi & Hlam & Hcm & Hgate & Hov & Tp & Tb & Te).
  set (n := Nodes 0 (-2) (-1) 0).
  assert (Hr : in_range ex_env n) by (unfold in_range, ex_env, n; cbn; lra).
  assert (Hr' : in_range ex_env (swap n)) by (unfold in_range, ex_env, n, swap; cbn; lra).
  assert (V1 : Vds m n true = 1) by (unfold Vds, n; rewrite Hpol; cbn; ring).
  assert (V2 : Vgs m n true = 2) by (unfold Vgs, n; rewrite Hpol; cbn; ring).
  assert (V3 : Vbs m n true = 0) by (unfold Vbs, n; rewrite Hpol; cbn; ring).
  destruct (stays m t ex_env n true 0 0 Hr eq_refl eq_refl) as (d & Hd & He & Hrv & _); [lra | lra | lra |].
  destruct (stays m t ex_env (swap n) false 0 0 Hr' eq_refl eq_refl) as (d' & Hd' & He' & _); [lra | lra | change (Vds m (swap n) false) with (Vds m n true); lra |].
  assert (Hb : bulk_off m n).
  { unfold bulk_off, source, n. rewrite Hpol. cbn. destruct (Rle_dec 0 (-1 * (0 - -1))); lra. }
  exists m, t, (start true (Vds m n true) (Vgs m n true) 0 0), d, (start false (Vds m (swap n) false) (Vgs m (swap n) false) 0 0), d'.
  cbv zeta. fold n. repeat (split; [assumption || reflexivity || lra|]).
  assert (E : tr_amps d n = 3).
  { destruct (C74_current m t ex_env n _ d Hr eq_refl Hd He Hb) as (-> & _ & _); [lra|].
    rewrite (drain_current_V m t n true) by lra. rewrite V1, V2, V3, Hpol.
    destruct (ex_level1 m t 1 2) as [_ A]; try assumption; try lra. rewrite A by lra. cbn. lra. }
  split; [assumption|]. rewrite <- E.
  eapply (C74_exchange m t ex_env n); try eassumption; try reflexivity; lra.
Qed.

(* C74_settles: from a new device, and from one that was the other way round and far away *)
Example C74_ex_settles : exists m t, precalc (ex_card pN 1) = Some m /\ temperature m ex_size 27 = Some t /\ 0 <= vds dev0 /\ 0 <= vds (start true 50 (-20) 0 0) /\
  forall s, s = dev0 \/ s = start true 50 (-20) 0 0 ->
  exists K, forall j, (K <= j)%nat -> exists d, iterate m t ex_env ex_nodes j s = Some d /\ tr_amps d ex_nodes = drain_current m t ex_nodes.
Proof.
  destruct (ex_model pN 1) as (m & t & Hm & Ht & Hpol & Hvto & Hg & Hphi & Hlam & Hcm & Hgate & Hov & Tp & Tb & Te).
  exists m, t. split; [assumption|]. split; [assumption|]. split; [cbn; lra|]. split; [cbn; lra|]. intros s Hs.
  assert (Hr : in_range ex_env ex_nodes) by (unfold in_range, ex_env, ex_nodes; cbn; lra).
  assert (Hsrc : source m ex_nodes = 0) by (unfold source, ex_nodes; rewrite Hpol; cbn; destruct (Rle_dec 0 (1 * (2 - 0))); lra).
  assert (Hb : bulk_off m ex_nodes) by (unfold bulk_off; rewrite Hsrc; unfold ex_nodes; cbn; lra).
  destruct (C74_settles m t ex_env ex_nodes s Hr eq_refl) as [K HK]; [lra | lra | destruct Hs; subst s; cbn; lra | discriminate |].
  exists K. intros j Hj. destruct (HK j Hj) as (d & D1 & D2 & D3). exists d. auto.
Qed.

(* C74_mirror *)
Example C74_ex_mirror : exists m t s d s' d', precalc (ex_card pN 1) = Some m /\ temperature m ex_size 27 = Some t /\ bulk_off m ex_nodes /\ 0 < t_phi t /\
  in_range ex_env (flip ex_nodes) /\ do_tr m t ex_env ex_nodes s = Some d /\ evaluated_at m ex_nodes d /\
  do_tr (opposite m) t ex_env (flip ex_nodes) s' = Some d' /\ evaluated_at (opposite m) (flip ex_nodes) d' /\ tr_amps d' (flip ex_nodes) = - tr_amps d ex_nodes.
Proof.
  destruct (ex_model pN 1) as (m & t & Hm & Ht & Hpol & Hvto & Hg & Hphi & Hlam & Hcm & Hgate & Hov & Tp & Tb & Te).
  assert (Hr : in_range ex_env ex_nodes) by (unfold in_range, ex_env, ex_nodes; cbn; lra).
  assert (Hr' : in_range ex_env (flip ex_nodes)) by (unfold in_range, ex_env, ex_nodes, flip; cbn; lra).
  assert (Hsrc : source m ex_nodes = 0) by (unfold source, ex_nodes; rewrite Hpol; cbn; destruct (Rle_dec 0 (1 * (2 - 0))); lra).
  assert (Hb : bulk_off m ex_nodes) by (unfold bulk_off; rewrite Hsrc; unfold ex_nodes; cbn; lra).
  assert (V1 : Vds m ex_nodes false = 2) by (unfold Vds, ex_nodes; rewrite Hpol; cbn; ring).
  assert (V1' : Vds (opposite m) (flip ex_nodes) false = 2) by (unfold Vds, ex_nodes, flip, opposite; cbn [polarity]; rewrite Hpol; cbn; ring).
  destruct (stays m t ex_env ex_nodes false 0 0 Hr eq_refl eq_refl) as (d & Hd & He & _); [lra | lra | lra |].
  destruct (stays (opposite m) t ex_env (flip ex_nodes) false 0 0 Hr' eq_refl eq_refl) as (d' & Hd' & He' & _); [lra | cbn; lra | lra |].
  exists m, t, (start false (Vds m ex_nodes false) (Vgs m ex_nodes false) 0 0), d,
    (start false (Vds (opposite m) (flip ex_nodes) false) (Vgs (opposite m) (flip ex_nodes) false) 0 0), d'.
  repeat (split; [assumption || lra|]).
  eapply C74_mirror; try eassumption; try reflexivity; lra.
Qed.

(* C74_capacitances, C74_capacitance_values: saturated *)
Example C74_ex_capacitances : exists m t s d, precalc (ex_card pN 1) = Some m /\ temperature m ex_size 27 = Some t /\ do_tr m t ex_env ex_nodes s = Some d /\ flag40 ex_env = false /\
  0 < phi m /\ 0 < cgate m ex_size /\ cmodel m = 3%Z /\ 0 < vgst d <= vds d.
Proof.
  destruct (ex_model pN 1) as (m & t & Hm & Ht & Hpol & Hvto & Hg & Hphi & Hlam & Hcm & Hgate & Hov & Tp & Tb & Te).
  assert (Hr : in_range ex_env ex_nodes) by (unfold in_range, ex_env, ex_nodes; cbn; lra).
  assert (V1 : Vds m ex_nodes false = 2) by (unfold Vds, ex_nodes; rewrite Hpol; cbn; ring).
  assert (V2 : Vgs m ex_nodes false = 1) by (unfold Vgs, ex_nodes; rewrite Hpol; cbn; ring).
  assert (V3 : Vbs m ex_nodes false = 0) by (unfold Vbs, ex_nodes; rewrite Hpol; cbn; ring).
  destruct (stays m t ex_env ex_nodes false 0 0 Hr eq_refl eq_refl) as (d & Hd & He & _ & Hds & Hgst & _); [lra | lra | lra |].
  assert (Hth : threshold m t (fmin 0 0) = 0).
  { rewrite fmin_neg by lra. unfold threshold. rewrite Hvto, Hphi, Tp, Te. rewrite Rminus_0_r. field. }
  rewrite V2, V3, Hth in Hgst. rewrite V1 in Hds.
  exists m, t, (start false (Vds m ex_nodes false) (Vgs m ex_nodes false) 0 0), d.
  repeat (split; [assumption || reflexivity || lra|]). split; [rewrite Hgate; unfold P_EPS_OX, P_EPS0; lra|]. split; [assumption | lra].
Qed.

(* C74_parameters: an oxide of 100 nm and a doping of 1e15 *)
Example C74_ex_parameters : exists m, precalc (Card pP None None None None (Some 1e-7) (Some 1e15) 1e10 600 1 None 27 0 1 1 0 0 0 0 0 0 0 0) = Some m /\ kp m = 0.06 * (3.9 * 8.854214871e-12 / 1e-7).
Proof.
  set (c := Card _ _ _ _ _ _ _ _ _ _ _ _ _ _ _ _ _ _ _ _ _ _ _).
  assert (H : exists m, precalc c = Some m).
  { unfold precalc, egap_at. cbn [c c_tnom]. rewrite fdiv_some by (unfold P_CELSIUS0; lra). cbn [bind].
    unfold tox_of, nsub_of, vto_raw_of. cbn [c c_tox c_nsub_cm c_vto c_gamma c_phi c_kp given]. destruct (Rle_dec 1e-7 0); [lra|].
    destruct (Rlt_dec (1e15 * ICM2M3) NI) as [H|_]; [unfold ICM2M3, NI in H; lra|].
    unfold phi_calc, flog. destruct (Rlt_dec 0 (1e15 * ICM2M3 / NI)) as [_|H]; [|exfalso; apply H; unfold ICM2M3, NI; lra]. cbn [bind].
    set (ph := if Rlt_dec _ 0.1 then _ else _).
    assert (Hph : 0 <= ph) by (unfold ph; destruct (Rlt_dec _ 0.1); lra).
    unfold gamma_calc. rewrite fsqrt_some by (unfold P_EPS_SI, P_EPS0, P_Q, ICM2M3; lra). cbn [bind].
    assert (Hcx : P_EPS_OX / 1e-7 <> 0) by (unfold P_EPS_OX, P_EPS0; lra).
    rewrite fdiv_some by assumption. cbn [bind]. unfold vto_calc. rewrite fdiv_some by assumption. cbn [bind].
    rewrite fsqrt_some by assumption. cbn [bind]. eexists. reflexivity. }
  destruct H as [m Hm]. exists m. split; [assumption|].
  destruct (C74_parameters c m 1e-7 1e15 Hm) as (A & B & _); try reflexivity; try lra. rewrite B, A. cbn [c c_uo_cm]. lra.
Qed.

(* C74_temperature: at 127 degrees *)
Example C74_ex_temperature : exists m t, precalc plain = Some m /\ temperature m ex_size 127 = Some t /\ 0 < tnom_k m /\ w_eff m ex_size <> 0.
Proof.
  assert (Hpc : exists m, precalc plain = Some m /\ w_eff m ex_size = 1 /\ l_eff m ex_size = 1 /\ tnom_k m = 300.15).
  { unfold precalc, egap_at. cbn [plain c_tnom c_tox c_cmodel]. rewrite fdiv_some by (unfold P_CELSIUS0; lra). cbn [bind].
    unfold tox_of. cbn [plain c_tox]. eexists. split; [reflexivity|]. unfold w_eff, l_eff. cbn. unfold P_CELSIUS0. repeat split; lra. }
  destruct Hpc as (m & Hm & Hw & Hl & Hk). exists m.
  assert (Ht : exists t, temperature m ex_size 127 = Some t).
  { unfold temperature. rewrite Hk, Hl. replace (127 + P_CELSIUS0) with 400.15 by (unfold P_CELSIUS0; lra).
    assert (Hr : 0 < 400.15 / 300.15) by lra. assert (Hs := sqrt_lt_R0 _ Hr). assert (HK : 0 < P_K) by (unfold P_K; lra).
    rewrite fdiv_some by lra. cbn [bind]. set (r := 400.15 / 300.15) in *. rewrite fsqrt_some by lra. cbn [bind].
    unfold egap_at. rewrite fdiv_some by lra. cbn [bind]. rewrite fdiv_some by lra. cbn [bind].
    unfold flog. destruct (Rlt_dec 0 r); [|lra]. cbn [bind]. rewrite fdiv_some by (apply Rgt_not_eq, Rmult_lt_0_compat; assumption). cbn [bind].
    rewrite fdiv_some by lra. cbn [bind]. eexists. reflexivity. }
  destruct Ht as [t Ht]. exists t. repeat split; auto; lra.
Qed.
