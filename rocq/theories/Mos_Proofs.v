(* proofs about the level 1 transistor *)
Require Import Reals ZArith Bool Lra Lia Psatz.
Require Import Verif.Loops Verif.Mos_Model.
Local Open Scope R_scope.

(* ---- what is meant, not code ---- *)
Definition pos (x : R) : R := if Rlt_dec 0 x then x else 0.
Definition sqpos (x : R) : R := pos x * pos x.
Definition lam (m : model) : R := match lambda m with Some l => l | None => 0 end.
(* the threshold at a bulk voltage *)
Definition threshold (m : model) (t : tdep) (bs : R) : R :=
  vto m + gamma m * (sqrt (t_phi t - bs) - sqrt (phi m)) + (egap m - t_egap t) / 2 + (t_phi t - phi m) / 2.
(* the level 1 equation: one formula for all regions *)
Definition level1 (m : model) (t : tdep) (ds gs bs : R) : R :=
  t_beta t / 2 * (1 + lam m * ds) * (sqpos (gs - threshold m t bs) - sqpos (gs - threshold m t bs - ds)).
(* the current from the drain node to the source node at the voltages of the nodes *)
Definition drain_current (m : model) (t : tdep) (n : nodes) : R :=
  let p := sgn (polarity m) in
  if Rle_dec 0 (p * (nd n - ns n)) then p * level1 m t (p * (nd n - ns n)) (p * (ng n - ns n)) (p * (nb n - ns n))
  else - p * level1 m t (p * (ns n - nd n)) (p * (ng n - nd n)) (p * (nb n - nd n)).
(* the node that acts as the source *)
Definition source (m : model) (n : nodes) : R := if Rle_dec 0 (sgn (polarity m) * (nd n - ns n)) then ns n else nd n.
Definition drain (m : model) (n : nodes) : R := if Rle_dec 0 (sgn (polarity m) * (nd n - ns n)) then nd n else ns n.
Definition bulk_off (m : model) (n : nodes) : Prop := sgn (polarity m) * (nb n - source m n) <= 0.
Definition in_range (e : env) (n : nodes) : Prop :=
  (vmin e <= nd n <= vmax e) /\ (vmin e <= ng n <= vmax e) /\ (vmin e <= ns n <= vmax e) /\ (vmin e <= nb n <= vmax e).
(* the voltages at which a device was evaluated are those of the nodes *)
Definition evaluated_at (m : model) (n : nodes) (d : dev) : Prop :=
  let p := sgn (polarity m) in
  if reversed d then vds d = p * (ns n - nd n) /\ vgs d = p * (ng n - nd n)
  else vds d = p * (nd n - ns n) /\ vgs d = p * (ng n - ns n).

(* ---- ---- *)
Lemma sgn_sq p : sgn p * sgn p = 1. Proof. destruct p; simpl; ring. Qed.
Lemma sgn_cases p : sgn p = 1 \/ sgn p = -1. Proof. destruct p; simpl; auto. Qed.

Lemma fsqrt_some x : 0 <= x -> fsqrt x = Some (sqrt x).
Proof. intros H. unfold fsqrt. destruct (Rle_dec 0 x); [reflexivity | lra]. Qed.
Lemma fdiv_some x y : y <> 0 -> fdiv x y = Some (x / y).
Proof. intros H. unfold fdiv. destruct (Req_EM_T y 0); [contradiction | reflexivity]. Qed.
Lemma fdiv_inv x y z : fdiv x y = Some z -> y <> 0 /\ z = x / y.
Proof. unfold fdiv. destruct (Req_EM_T y 0); intros H; inversion H; auto. Qed.
Lemma fsqrt_inv x z : fsqrt x = Some z -> 0 <= x /\ z = sqrt x.
Proof. unfold fsqrt. destruct (Rle_dec 0 x); intros H; inversion H; auto. Qed.
Lemma flog_inv x z : flog x = Some z -> 0 < x /\ z = ln x.
Proof. unfold flog. destruct (Rlt_dec 0 x); intros H; inversion H; auto. Qed.

Lemma fmin_le a : fmin a 0 <= 0.
Proof. unfold fmin. destruct (Rlt_dec 0 a); lra. Qed.
Lemma fmin_neg a : a <= 0 -> fmin a 0 = a.
Proof. unfold fmin. destruct (Rlt_dec 0 a); lra. Qed.

(* ---- the channel ---- *)
Lemma channel_spec m t ds gst dsarg : 0 <= ds ->
  let dsat := if Rlt_dec gst 0 then 0 else gst in
  channel m t (if Rlt_dec gst 0 then true else false) (if Rlt_dec dsat ds then true else false) ds gst dsarg =
  (t_beta t / 2 * (1 + lam m * ds) * (sqpos gst - sqpos (gst - ds)),
   t_beta t * (1 + lam m * ds) * (pos gst - pos (gst - ds)),
   t_beta t / 2 * lam m * (sqpos gst - sqpos (gst - ds)) + t_beta t * (1 + lam m * ds) * pos (gst - ds),
   - (t_beta t * (1 + lam m * ds) * (pos gst - pos (gst - ds))) * gamma m * dsarg).
Proof.
  intros Hds. cbv zeta.
  assert (HL : dflt 0 (lambda m) = lam m) by reflexivity.
  unfold channel. rewrite HL. unfold sqpos, pos. replace 0.5 with (/ 2) by lra. replace 1.5 with (3 / 2) by lra.
  destruct (Rlt_dec gst 0) as [Hc|Hc].
  - destruct (Rlt_dec 0 gst); [lra|]. destruct (Rlt_dec 0 (gst - ds)); [lra|].
    f_equal; [f_equal; [f_equal|]|]; ring.
  - destruct (Rlt_dec gst ds) as [Hs|Hs].
    + destruct (Rlt_dec 0 (gst - ds)); [lra|].
      destruct (Rlt_dec 0 gst) as [H0|H0].
      * f_equal; [f_equal; [f_equal|]|]; field.
      * assert (gst = 0) by lra. subst gst. f_equal; [f_equal; [f_equal|]|]; field.
    + destruct (Rlt_dec 0 gst) as [H0|H0].
      * destruct (Rlt_dec 0 (gst - ds)) as [H1|H1].
        -- f_equal; [f_equal; [f_equal|]|]; field.
        -- assert (gst = ds) by lra. subst gst. f_equal; [f_equal; [f_equal|]|]; field.
      * assert (gst = 0) by lra. assert (ds = 0) by lra. subst gst ds.
        destruct (Rlt_dec 0 (0 - 0)); [lra|]. f_equal; [f_equal; [f_equal|]|]; field.
Qed.

Lemma von_threshold m t bs o : von_of m t (sqrt (t_phi t - bs)) = Some o -> o = threshold m t bs.
Proof.
  unfold von_of, threshold. destruct (fsqrt (phi m)) as [s|] eqn:E; simpl; [|discriminate].
  apply fsqrt_inv in E. destruct E as [_ ->]. intros H. inversion H. lra.
Qed.

(* everything a successful evaluation says *)
Lemma tr_eval_inv m t f rv ds gs bs x d : tr_eval m t f rv ds gs bs x = Some d ->
  exists rv' ds' gs' bs' sarg dsarg fwd on,
    reverse_if_needed f rv ds gs bs = (rv', (ds', gs', bs')) /\ bulk_sqrt t bs' = Some (sarg, dsarg, fwd) /\ von_of m t sarg = Some on /\
    0 <= ds' /\ 0 <= vdsat d /\
    reversed d = rv' /\ vds d = ds' /\ vgs d = gs' /\ vbs d = bs' /\ von d = on /\ vgst d = gs' - on /\
    vdsat d = pos (gs' - on) /\ sbfwd d = fwd /\
    let gst := gs' - on in
    let i := t_beta t / 2 * (1 + lam m * ds') * (sqpos gst - sqpos (gst - ds')) in
    let gm := t_beta t * (1 + lam m * ds') * (pos gst - pos (gst - ds')) in
    gds d = t_beta t / 2 * lam m * (sqpos gst - sqpos (gst - ds')) + t_beta t * (1 + lam m * ds') * pos (gst - ds') /\
    if rv' then ids d = - i /\ gmf d = 0 /\ gmbf d = 0 /\ gmr d = gm /\ gmbr d = - gm * gamma m * dsarg
    else ids d = i /\ gmf d = gm /\ gmbf d = - gm * gamma m * dsarg /\ gmr d = 0 /\ gmbr d = 0.
Proof.
  unfold tr_eval. intros H.
  destruct (reverse_if_needed f rv ds gs bs) as [rv' [[ds' gs'] bs']] eqn:Er.
  destruct (bulk_sqrt t bs') as [[[sarg dsarg] fwd]|] eqn:Eb; simpl in H; [|discriminate].
  destruct (von_of m t sarg) as [on|] eqn:Eo; simpl in H; [|discriminate].
  assert (Hds : 0 <= ds').
  { unfold reverse_if_needed in Er. destruct (Rlt_dec ds 0); inversion Er; lra. }
  rewrite (channel_spec m t ds' (gs' - on) dsarg Hds) in H. cbv zeta in H.
  assert (Hp : (if Rlt_dec (gs' - on) 0 then 0 else gs' - on) = pos (gs' - on)).
  { unfold pos. destruct (Rlt_dec (gs' - on) 0); destruct (Rlt_dec 0 (gs' - on)); lra. }
  assert (Hp0 : 0 <= pos (gs' - on)) by (unfold pos; destruct (Rlt_dec 0 (gs' - on)); lra).
  rewrite Hp in H.
  exists rv', ds', gs', bs', sarg, dsarg, fwd, on.
  destruct rv'; inversion H; subst d; clear H; cbn; repeat split; auto; ring.
Qed.

(* at a bulk that is not forward the evaluation has a value *)
Lemma bulk_off_value t bs : bs <= 0 -> 0 < t_phi t ->
  bulk_sqrt t bs = Some (sqrt (t_phi t - bs), - 0.5 / sqrt (t_phi t - bs), false).
Proof.
  intros Hb Hp. unfold bulk_sqrt. destruct (Rle_dec bs 0); [|lra].
  rewrite fsqrt_some by lra. simpl. rewrite fdiv_some; [reflexivity|].
  apply Rgt_not_eq. apply sqrt_lt_R0. lra.
Qed.
Lemma bulk_total t bs : 0 < t_phi t -> exists x, bulk_sqrt t bs = Some x.
Proof.
  intros Hp. destruct (Rle_dec bs 0) as [H|H].
  - eexists. apply bulk_off_value; assumption.
  - unfold bulk_sqrt. destruct (Rle_dec bs 0); [contradiction|].
    rewrite fsqrt_some by lra. simpl. rewrite fdiv_some by lra. simpl.
    assert (0 < 0.5 * bs / t_phi t) by (apply Rdiv_lt_0_compat; lra).
    rewrite fdiv_some by lra. simpl. rewrite fdiv_some by lra. simpl. eexists. reflexivity.
Qed.
Lemma tr_eval_total m t f rv ds gs bs x : 0 < t_phi t -> 0 <= phi m -> exists d, tr_eval m t f rv ds gs bs x = Some d.
Proof.
  intros Hp Hm. unfold tr_eval.
  destruct (reverse_if_needed f rv ds gs bs) as [rv' [[ds' gs'] bs']].
  destruct (bulk_total t bs' Hp) as [[[sarg dsarg] fwd] ->]. simpl.
  unfold von_of. rewrite fsqrt_some by assumption. simpl.
  destruct (channel _ _ _ _ _ _ _) as [[[i gm] gd] gmb]. eexists. reflexivity.
Qed.
Lemma do_tr_total m t e n s : 0 < t_phi t -> 0 <= phi m -> exists d, do_tr m t e n s = Some d.
Proof.
  intros Hp Hm. unfold do_tr. destruct (new_volts m e n s) as [rv [[ds gs] bs]].
  destruct (tr_eval_total m t (flag40 e) rv ds gs bs (idsxxx s) Hp Hm) as [d ->]. simpl. eexists. reflexivity.
Qed.

(* one iteration is an evaluation, and what is put in the matrix is its tangent *)
Lemma do_tr_inv m t e n s d : do_tr m t e n s = Some d ->
  exists rv ds gs bs d0, new_volts m e n s = (rv, (ds, gs, bs)) /\ tr_eval m t (flag40 e) rv ds gs bs (idsxxx s) = Some d0 /\
    reversed d = reversed d0 /\ vds d = vds d0 /\ vgs d = vgs d0 /\ vbs d = vbs d0 /\ von d = von d0 /\ vgst d = vgst d0 /\ vdsat d = vdsat d0 /\
    ids d = ids d0 * sgn (polarity m) /\ gds d = gds d0 /\ gmf d = gmf d0 /\ gmr d = gmr d0 /\ gmbf d = gmbf d0 /\ gmbr d = gmbr d0 /\
    idsxxx d = (if reversed d0 then ids d0 + vds d0 * gds d0 + vgs d0 * gmr d0 + vbs d0 * gmbr d0
                else ids d0 - vds d0 * gds d0 - vgs d0 * gmf d0 - vbs d0 * gmbf d0) * sgn (polarity m).
Proof.
  unfold do_tr. intros H. destruct (new_volts m e n s) as [rv [[ds gs] bs]].
  destruct (tr_eval m t (flag40 e) rv ds gs bs (idsxxx s)) as [d0|] eqn:E; simpl in H; [|discriminate].
  exists rv, ds, gs, bs, d0. inversion H; subst d; clear H. cbn. repeat split; auto.
Qed.

Lemma clip_in e v : vmin e <= v <= vmax e -> clip e v = v.
Proof. intros H. unfold clip. destruct (Rlt_dec v (vmin e)); [lra|]. destruct (Rlt_dec (vmax e) v); lra. Qed.
Lemma vl_in e a b : vmin e <= a <= vmax e -> vmin e <= b <= vmax e -> volts_limited e a b = a - b.
Proof. intros Ha Hb. unfold volts_limited. rewrite !clip_in by assumption. reflexivity. Qed.

(* the voltages of the nodes in the orientation rv *)
Definition Vds (m : model) (n : nodes) (rv : bool) : R := sgn (polarity m) * (if rv then ns n - nd n else nd n - ns n).
Definition Vgs (m : model) (n : nodes) (rv : bool) : R := sgn (polarity m) * (ng n - (if rv then nd n else ns n)).
Definition Vbs (m : model) (n : nodes) (rv : bool) : R := sgn (polarity m) * (nb n - (if rv then nd n else ns n)).

Lemma new_volts_in m e n s : in_range e n -> initial_step e = false ->
  new_volts m e n s = (reversed s,
    (let gs := fet_limit_vgs (Vgs m n (reversed s)) (vgs s) (von s) in
     (if tied e then Vds m n (reversed s) + (gs - Vgs m n (reversed s)) else fet_limit_vds (Vds m n (reversed s)) (vds s), gs, fmin (Vbs m n (reversed s)) 0))).
Proof.
  intros (Hd & Hg & Hs & Hb) Hi. unfold new_volts. rewrite Hi. unfold Vds, Vgs, Vbs.
  destruct (reversed s); rewrite !vl_in by assumption; reflexivity.
Qed.

Lemma evaluated_at_V m n d : evaluated_at m n d <-> vds d = Vds m n (reversed d) /\ vgs d = Vgs m n (reversed d).
Proof. unfold evaluated_at, Vds, Vgs. destruct (reversed d); tauto. Qed.

Lemma Vneg m n rv : Vds m n (negb rv) = - Vds m n rv /\ Vgs m n (negb rv) = Vgs m n rv - Vds m n rv /\ Vbs m n (negb rv) = Vbs m n rv - Vds m n rv.
Proof. unfold Vds, Vgs, Vbs. destruct rv; simpl; repeat split; ring. Qed.

(* the current at one orientation *)
Lemma drain_current_V m t n rv : 0 <= Vds m n rv ->
  drain_current m t n = (if rv then - sgn (polarity m) else sgn (polarity m)) * level1 m t (Vds m n rv) (Vgs m n rv) (Vbs m n rv).
Proof.
  unfold drain_current, Vds, Vgs, Vbs. intros H. set (p := sgn (polarity m)) in *.
  destruct (Rle_dec 0 (p * (nd n - ns n))) as [H1|H1]; destruct rv; try reflexivity; [|exfalso; lra].
  assert (E : p * (nd n - ns n) = 0) by lra.
  assert (E' : p * (ns n - nd n) = 0) by lra.
  unfold level1. rewrite E, E'. rewrite !Rminus_0_r. ring.
Qed.
Lemma bulk_off_V m n rv : 0 <= Vds m n rv -> bulk_off m n -> Vbs m n rv <= 0.
Proof.
  unfold bulk_off, source, Vds, Vbs. intros H.
  assert (Hs := sgn_cases (polarity m)). set (p := sgn (polarity m)) in *.
  destruct (Rle_dec 0 (p * (nd n - ns n))); destruct rv; auto; intros; destruct Hs as [Hs|Hs]; rewrite Hs in *; lra.
Qed.

(* the bulk voltage of an evaluation at the voltages of the nodes *)
Lemma eval_bulk m t e n s d : in_range e n -> initial_step e = false -> do_tr m t e n s = Some d -> evaluated_at m n d ->
  0 <= vds d /\ (Vbs m n (reversed d) <= 0 -> vbs d = Vbs m n (reversed d)).
Proof.
  intros Hr Hi Hd He. apply evaluated_at_V in He. destruct He as [He _].
  destruct (do_tr_inv _ _ _ _ _ _ Hd) as (rv & ds & gs & bs & d0 & Hn & Ht & E1 & E2 & E3 & E4 & _).
  rewrite (new_volts_in _ _ _ _ Hr Hi) in Hn. inversion Hn as [[Hrv Hds Hgs Hbs]]; clear Hn.
  destruct (tr_eval_inv _ _ _ _ _ _ _ _ _ Ht) as (rv' & ds' & gs' & bs' & sarg & dsarg & fwd & on & Hrev & _ & _ & H0 & _ & F1 & F2 & F3 & F4 & _).
  rewrite E2, F2. split; [assumption|]. intros Hb. rewrite E4, F4.
  rewrite E1, F1 in *. rewrite E2, F2 in He. subst rv.
  unfold reverse_if_needed in Hrev.
  destruct (Rlt_dec ds 0) as [Hlt|Hge].
  - injection Hrev as R1 R2 R3 R4. subst rv'.
    destruct (Vneg m n (reversed s)) as (N1 & _ & N3). rewrite R1 in N1, N3. rewrite N1 in He. rewrite N3 in *.
    assert (ds = Vds m n (reversed s)) by lra. rewrite <- R4.
    assert (Vbs m n (reversed s) <= 0) by lra.
    rewrite <- Hbs. rewrite (fmin_neg (Vbs m n (reversed s))) by assumption.
    destruct (flag40 e); [lra|]. rewrite fmin_neg; lra.
  - injection Hrev as R1 R2 R3 R4. subst rv'. rewrite <- R4, <- Hbs, R1. apply fmin_neg. assumption.
Qed.

(* the current and the slopes of an evaluation at the voltages of the nodes *)
Lemma eval_facts m t e n s d : in_range e n -> initial_step e = false -> do_tr m t e n s = Some d -> evaluated_at m n d -> bulk_off m n -> 0 < t_phi t ->
  exists rv, reversed d = rv /\ 0 <= Vds m n rv /\ Vbs m n rv <= 0 /\ von d = threshold m t (Vbs m n rv) /\
    let p := sgn (polarity m) in
    let th := threshold m t (Vbs m n rv) in
    let gst := Vgs m n rv - th in
    let ds := Vds m n rv in
    let gd := t_beta t / 2 * lam m * (sqpos gst - sqpos (gst - ds)) + t_beta t * (1 + lam m * ds) * pos (gst - ds) in
    let gm := t_beta t * (1 + lam m * ds) * (pos gst - pos (gst - ds)) in
    let gmb := gm * (gamma m * (0.5 / sqrt (t_phi t - Vbs m n rv))) in
    vds d = ds /\ vgs d = Vgs m n rv /\ vbs d = Vbs m n rv /\ vgst d = gst /\
    ids d = (if rv then - p else p) * level1 m t ds (Vgs m n rv) (Vbs m n rv) /\ gds d = gd /\
    (if rv then gmf d = 0 /\ gmbf d = 0 /\ gmr d = gm /\ gmbr d = gmb else gmf d = gm /\ gmbf d = gmb /\ gmr d = 0 /\ gmbr d = 0) /\
    tr_amps d n = ids d.
Proof.
  intros Hr Hi Hd He Hb Hp.
  destruct (eval_bulk _ _ _ _ _ _ Hr Hi Hd He) as [Hv Hbs].
  apply evaluated_at_V in He. destruct He as [He1 He2].
  assert (HV : 0 <= Vds m n (reversed d)) by lra.
  assert (HB := bulk_off_V _ _ _ HV Hb). specialize (Hbs HB).
  destruct (do_tr_inv _ _ _ _ _ _ Hd) as (rv0 & ds & gs & bs & d0 & Hn & Ht & E1 & E2 & E3 & E4 & E5 & E6 & E7 & E8 & E9 & E10 & E11 & E12 & E13 & E14).
  destruct (tr_eval_inv _ _ _ _ _ _ _ _ _ Ht) as (rv & ds' & gs' & bs' & sarg & dsarg & fwd & on & Hrev & Hsq & Hon & H0 & _ & F1 & F2 & F3 & F4 & F5 & F6 & F7 & F8 & F9 & F10).
  exists rv. rewrite E1, F1 in *. rewrite E2, F2 in *. rewrite E3, F3 in *. rewrite E4, F4 in *. subst ds' gs' bs'.
  rewrite bulk_off_value in Hsq by assumption. inversion Hsq; subst sarg dsarg fwd; clear Hsq.
  apply von_threshold in Hon. subst on.
  assert (Hs : 0 < sqrt (t_phi t - Vbs m n rv)) by (apply sqrt_lt_R0; lra).
  split; [reflexivity|]. split; [assumption|]. split; [assumption|]. split; [rewrite E5; assumption|].
  cbv zeta in *. rewrite E6, F6. rewrite E9, F9.
  assert (HP := sgn_sq (polarity m)).
  destruct rv.
  - destruct F10 as (G1 & G2 & G3 & G4 & G5).
    assert (A : tr_amps d n = ids d).
    { unfold tr_amps, values, ports. cbn [fst snd port_sum]. rewrite E14, E8, E9, E10, E11, E12, E13. rewrite ?F1. cbv iota.
      rewrite G2, G3. rewrite ?F2, ?F3, ?F4. unfold Vds, Vgs, Vbs. set (p := sgn (polarity m)) in *.
      set (gd := gds d0). set (a := gmr d0). set (b := gmbr d0). set (i := ids d0).
      replace ((i + p * (ns n - nd n) * gd + p * (ng n - nd n) * a + p * (nb n - nd n) * b) * p)
        with (i * p + (p * p) * ((ns n - nd n) * gd + (ng n - nd n) * a + (nb n - nd n) * b)) by ring.
      rewrite HP. ring. }
    rewrite A. rewrite E8, E10, E11, E12, E13, G1, G2, G3, G4, G5. unfold level1.
    repeat split; try assumption; try reflexivity; try ring; replace 0.5 with (/ 2) by lra; replace (-0.5) with (- / 2) by lra; field; lra.
  - destruct F10 as (G1 & G2 & G3 & G4 & G5).
    assert (A : tr_amps d n = ids d).
    { unfold tr_amps, values, ports. cbn [fst snd port_sum]. rewrite E14, E8, E9, E10, E11, E12, E13. rewrite ?F1. cbv iota.
      rewrite G4, G5. rewrite ?F2, ?F3, ?F4. unfold Vds, Vgs, Vbs. set (p := sgn (polarity m)) in *.
      set (gd := gds d0). set (a := gmf d0). set (b := gmbf d0). set (i := ids d0).
      replace ((i - p * (nd n - ns n) * gd - p * (ng n - ns n) * a - p * (nb n - ns n) * b) * p)
        with (i * p - (p * p) * ((nd n - ns n) * gd + (ng n - ns n) * a + (nb n - ns n) * b)) by ring.
      rewrite HP. ring. }
    rewrite A. rewrite E8, E10, E11, E12, E13, G1, G2, G3, G4, G5. unfold level1.
    repeat split; try assumption; try reflexivity; try ring; replace 0.5 with (/ 2) by lra; replace (-0.5) with (- / 2) by lra; field; lra.
Qed.
