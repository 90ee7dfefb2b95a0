(* C36: the pulse source *)
Require Import ZArith QArith Qround Lqa Lia List Bool.
Require Import Verif.Qnum Verif.Pulse_Model.
Local Open Scope Q_scope.

Definition periodic (p : pulse) : Prop := 0 < period p /\ period p < bigbig p.
Definition single (p : pulse) : Prop := ~ periodic p.
Definition sane_pulse (p : pulse) : Prop := 0 <= rise p /\ 0 <= width p /\ 0 <= fall p.

Lemma inj_succ : forall z, inject_Z (z + 1) == inject_Z z + 1.
Proof. intros. rewrite inject_Z_plus. reflexivity. Qed.

Lemma reltime_periodic : forall p raw, periodic p -> reltime p raw = fmod (raw - delay p) (period p).
Proof.
  intros p raw [A B]. unfold reltime. destruct (qltb_spec 0 (period p)), (qltb_spec (period p) (bigbig p)); try contradiction. reflexivity.
Qed.
Lemma reltime_single : forall p raw, single p -> reltime p raw = raw - delay p.
Proof.
  intros p raw H. unfold reltime.
  destruct (qltb_spec 0 (period p)), (qltb_spec (period p) (bigbig p)); try reflexivity. exfalso. apply H. split; assumption.
Qed.

(* fmod is the remainder *)
Lemma fmod_unique : forall x P k r, 0 < P -> 0 <= r -> r < P -> x == inject_Z k * P + r -> fmod x P == r.
Proof.
  intros x P k r HP R0 R1 E. unfold fmod.
  assert (F : Qfloor (x / P) = k).
  { assert (E2 : x / P == inject_Z k + r / P) by (rewrite E; field; lra).
    assert (B0 : 0 <= r / P) by (apply Qle_shift_div_l; [assumption|lra]).
    assert (B1 : r / P < 1) by (apply Qlt_shift_div_r; [assumption|lra]).
    pose proof (Qfloor_le (x / P)) as L. pose proof (Qlt_floor (x / P)) as U. rewrite E2 in L at 2. rewrite E2 in U at 1.
    assert (A1 : inject_Z (Qfloor (x / P)) < inject_Z (k + 1)) by (rewrite inj_succ; lra).
    assert (A2 : inject_Z k < inject_Z (Qfloor (x / P) + 1)) by lra.
    rewrite <- Zlt_Qlt in A1, A2. lia. }
  rewrite F, E. ring.
Qed.

Lemma fmod_range : forall x P, 0 < P -> 0 <= fmod x P /\ fmod x P < P.
Proof.
  intros x P HP. unfold fmod. pose proof (Qfloor_le (x / P)) as L. pose proof (Qlt_floor (x / P)) as U.
  rewrite inj_succ in U.
  assert (E : x == x / P * P) by (field; lra).
  assert (L2 : inject_Z (Qfloor (x / P)) * P <= x / P * P) by (apply Qmult_le_compat_r; lra).
  assert (U2 : x / P * P < (inject_Z (Qfloor (x / P)) + 1) * P) by (apply Qmult_lt_compat_r; assumption).
  split; lra.
Qed.

(* the shape of one pulse, as a function of the time since it started *)
Definition shape (p : pulse) (r : Q) : Q :=
  if qltb r (rise p) then iv p + r / rise p * (pv p - iv p)
  else if qleb r (rise p + width p) then pv p
  else if qltb r (rise p + width p + fall p) then pv p + (r - (rise p + width p)) / fall p * (iv p - pv p)
  else iv p.

Lemma shape_proper : forall p r r', r == r' -> shape p r == shape p r'.
Proof.
  intros p r r' E. unfold shape.
  destruct (qltb_spec r (rise p)), (qltb_spec r' (rise p)); try lra; [rewrite E; reflexivity|].
  destruct (qleb_spec r (rise p + width p)), (qleb_spec r' (rise p + width p)); try lra.
  destruct (qltb_spec r (rise p + width p + fall p)), (qltb_spec r' (rise p + width p + fall p)); try lra; rewrite E; reflexivity.
Qed.

(* initial value up to the delay; then, r after the start of any period, the value is on the
   rising line, the pulse value, the falling line or the initial value *)
Theorem C36_value : forall p t, sane_pulse p ->
  (t <= delay p -> pulse_eval p t == iv p) /\
  (forall k r, delay p < t ->
    (periodic p /\ 0 <= r /\ r < period p /\ t == delay p + inject_Z k * period p + r \/
     single p /\ t == delay p + r) ->
    (r < rise p -> pulse_eval p t * rise p == iv p * rise p + r * (pv p - iv p)) /\
    (rise p <= r -> r <= rise p + width p -> pulse_eval p t == pv p) /\
    (rise p + width p < r -> r < rise p + width p + fall p ->
      pulse_eval p t * fall p == pv p * fall p + (r - (rise p + width p)) * (iv p - pv p)) /\
    (rise p + width p + fall p <= r -> rise p + width p < r -> pulse_eval p t == iv p)).
Proof.
  intros p t (S1 & S2 & S3). unfold pulse_eval. split.
  - intros H. destruct (qleb_spec t (delay p)); [reflexivity|contradiction].
  - intros k r Ht Hr. destruct (qleb_spec t (delay p)) as [X|_]; [lra|].
    cbv zeta. fold (shape p (reltime p t)).
    assert (E : reltime p t == r).
    { destruct Hr as [(P & R0 & R1 & E)|(P & E)].
      - rewrite reltime_periodic by assumption. apply (fmod_unique _ _ k); auto; [apply P|]. lra.
      - rewrite reltime_single by assumption. lra. }
    assert (Es : shape p (reltime p t) == shape p r) by now apply shape_proper.
    assert (G : (r < rise p -> shape p r * rise p == iv p * rise p + r * (pv p - iv p)) /\
      (rise p <= r -> r <= rise p + width p -> shape p r == pv p) /\
      (rise p + width p < r -> r < rise p + width p + fall p ->
        shape p r * fall p == pv p * fall p + (r - (rise p + width p)) * (iv p - pv p)) /\
      (rise p + width p + fall p <= r -> rise p + width p < r -> shape p r == iv p)).
    { unfold shape. repeat split; intros.
      - destruct (qltb_spec r (rise p)) as [L|L]; [|contradiction].
        assert (0 <= r). { destruct Hr as [(_ & R0 & _)|(_ & Er)]; [assumption|lra]. }
        field. lra.
      - destruct (qltb_spec r (rise p)); [lra|]. destruct (qleb_spec r (rise p + width p)); [reflexivity|contradiction].
      - destruct (qltb_spec r (rise p)); [lra|]. destruct (qleb_spec r (rise p + width p)); [lra|].
        destruct (qltb_spec r (rise p + width p + fall p)) as [L|L]; [|contradiction]. field. lra.
      - destruct (qltb_spec r (rise p)); [lra|]. destruct (qleb_spec r (rise p + width p)); [lra|].
        destruct (qltb_spec r (rise p + width p + fall p)); [lra|reflexivity]. }
    destruct G as (G1 & G2 & G3 & G4). rewrite !Es. auto.
Qed.

(* the same again one period later *)
Theorem C36_repeats : forall p t, periodic p -> delay p < t -> pulse_eval p (t + period p) == pulse_eval p t.
Proof.
  intros p t P Ht. unfold pulse_eval. destruct P as [P0 P1].
  destruct (qleb_spec t (delay p)) as [X|_]; [lra|].
  destruct (qleb_spec (t + period p) (delay p)) as [X|_]; [lra|].
  cbv zeta. fold (shape p (reltime p t)). fold (shape p (reltime p (t + period p))).
  apply shape_proper. rewrite !reltime_periodic by (split; assumption).
  destruct (fmod_range (t - delay p) (period p) P0) as [A B].
  apply (fmod_unique _ _ (Qfloor ((t - delay p) / period p) + 1)); auto.
  rewrite inj_succ. unfold fmod. ring.
Qed.

(* the waveform is a straight line strictly between a and b *)
Definition straight (f : Q -> Q) (a b : Q) : Prop :=
  exists c s, forall t, a < t -> t < b -> f t == c + s * t.

Lemma straight_shape : forall p raw r off e,
  (forall t, raw < t -> t < off + e -> pulse_eval p t == shape p (t - off)) ->
  raw == off + r -> 0 <= r -> sane_pulse p ->
  (r < rise p /\ e == rise p \/
   rise p <= r /\ r < rise p + width p /\ e == rise p + width p \/
   rise p + width p <= r /\ r < rise p + width p + fall p /\ e == rise p + width p + fall p \/
   rise p + width p + fall p <= r) ->
  straight (pulse_eval p) raw (off + e).
Proof.
  intros p raw r off e H E R0 (S1 & S2 & S3) C.
  destruct C as [(L & Ee)|[(L1 & L2 & Ee)|[(L1 & L2 & Ee)|L]]].
  - exists (iv p - off / rise p * (pv p - iv p)), ((pv p - iv p) / rise p). intros t T1 T2.
    rewrite H by assumption. unfold shape. destruct (qltb_spec (t - off) (rise p)) as [_|X]; [|lra]. field. lra.
  - exists (pv p), 0. intros t T1 T2. rewrite H by assumption. unfold shape.
    destruct (qltb_spec (t - off) (rise p)) as [X|_]; [lra|].
    destruct (qleb_spec (t - off) (rise p + width p)) as [_|X]; [|lra]. ring.
  - exists (pv p - (off + (rise p + width p)) / fall p * (iv p - pv p)), ((iv p - pv p) / fall p). intros t T1 T2.
    rewrite H by assumption. unfold shape.
    destruct (qltb_spec (t - off) (rise p)) as [X|_]; [lra|].
    destruct (qleb_spec (t - off) (rise p + width p)) as [X|_]; [lra|].
    destruct (qltb_spec (t - off) (rise p + width p + fall p)) as [_|X]; [|lra]. field. lra.
  - exists (iv p), 0. intros t T1 T2. rewrite H by assumption. unfold shape.
    destruct (qltb_spec (t - off) (rise p)) as [X|_]; [lra|].
    destruct (qleb_spec (t - off) (rise p + width p)) as [X|_]; [lra|].
    destruct (qltb_spec (t - off) (rise p + width p + fall p)) as [X|_]; [lra|]. ring.
Qed.

Lemma straight_proper : forall f a b b', b == b' -> straight f a b -> straight f a b'.
Proof. intros f a b b' E (c & s & H). exists c, s. intros t T1 T2. apply H; lra. Qed.

(* the announced event: more than a minimum step away, and the waveform is straight from two
   minimum steps after now until then.  The pulse must fit in its period. *)
Theorem C36_announced : forall p now dtmin, sane_pulse p -> 0 < dtmin ->
  (periodic p /\ rise p + width p + fall p <= period p \/
   single p /\ now + dtmin * 2 < delay p + period p) ->
  now + dtmin < pulse_review p now dtmin /\
  straight (pulse_eval p) (now + dtmin * 2) (pulse_review p now dtmin).
Proof.
  intros p now dtmin Sn Dm Hp. unfold pulse_review. set (raw := now + dtmin * 2).
  assert (Rn : now + dtmin < raw) by (unfold raw; lra). pose proof Sn as (S1 & S2 & S3).
  destruct (qleb_spec raw (delay p)) as [L|L].
  - split; [lra|]. exists (iv p), 0. intros t T1 T2. unfold pulse_eval.
    destruct (qleb_spec t (delay p)) as [_|X]; [ring|lra].
  - cbv zeta. set (r := reltime p raw). set (off := raw - r).
    assert (F : 0 <= r /\ r < period p /\
       forall e, e <= period p \/ single p -> forall t, raw < t -> t < off + e -> pulse_eval p t == shape p (t - off)).
    { destruct Hp as [((P0 & P1) & Fit)|(Sg & Lt)].
      - assert (Er : r = fmod (raw - delay p) (period p)) by (unfold r; apply reltime_periodic; split; assumption).
        destruct (fmod_range (raw - delay p) (period p) P0) as [A B]. rewrite <- Er in A, B.
        split; [exact A|]. split; [exact B|]. intros e He t T1 T2.
        assert (He' : e <= period p).
        { destruct He as [He|He]; [exact He|]. exfalso. apply He. split; assumption. }
        unfold pulse_eval. destruct (qleb_spec t (delay p)) as [X|_]; [lra|]. cbv zeta. fold (shape p (reltime p t)).
        apply shape_proper. rewrite reltime_periodic by (split; assumption).
        apply (fmod_unique _ _ (Qfloor ((raw - delay p) / period p))); auto; unfold off in *; [lra|lra|].
        rewrite Er. unfold fmod. ring.
      - assert (Er : r = raw - delay p) by (unfold r; now apply reltime_single).
        split; [rewrite Er; lra|]. split; [rewrite Er; unfold raw; lra|]. intros e _ t T1 T2.
        unfold pulse_eval. destruct (qleb_spec t (delay p)) as [X|_]; [lra|]. cbv zeta. fold (shape p (reltime p t)).
        apply shape_proper. rewrite reltime_single by assumption. unfold off. rewrite Er. ring. }
    destruct F as (R0 & R1 & F).
    assert (Eo : raw == off + r) by (unfold off; ring).
    assert (Fit : rise p + width p + fall p <= period p \/ single p) by (destruct Hp as [[_ Fit]|[Sg _]]; [now left|now right]).
    destruct (qltb_spec r (rise p)) as [C1|C1]; [|destruct (qltb_spec r (rise p + width p)) as [C2|C2];
      [|destruct (qltb_spec r (rise p + width p + fall p)) as [C3|C3]]].
    + split; [lra|]. apply (straight_proper _ _ (off + rise p)); [ring|].
      apply (straight_shape p raw r off (rise p)); auto; [|left; split; [assumption|reflexivity]].
      apply F. destruct Fit as [Fit|Sg]; [left; lra|right; assumption].
    + split; [lra|]. apply (straight_proper _ _ (off + (rise p + width p))); [ring|].
      apply (straight_shape p raw r off (rise p + width p)); auto; [|right; left; repeat split; try lra].
      apply F. destruct Fit as [Fit|Sg]; [left; lra|right; assumption].
    + split; [lra|]. apply (straight_proper _ _ (off + (rise p + width p + fall p))); [ring|].
      apply (straight_shape p raw r off (rise p + width p + fall p)); auto; [|right; right; left; repeat split; try lra].
      apply F. destruct Fit as [Fit|Sg]; [left; lra|right; assumption].
    + split; [lra|]. apply (straight_proper _ _ (off + period p)); [ring|].
      apply (straight_shape p raw r off (period p)); auto; [|right; right; right; lra].
      apply F. left. lra.
Qed.

(* a pulse longer than its period: the corner at the end of the period is not announced *)
Theorem C36_long_pulse_refuted : exists p now dtmin, sane_pulse p /\ periodic p /\ 0 < dtmin /\
  ~ straight (pulse_eval p) (now + dtmin * 2) (pulse_review p now dtmin).
Proof.
  exists (mkPulse 0 1 0 1 1 5 3 1000), 2, (1#10). split; [repeat split; discriminate|]. split; [split; reflexivity|].
  split; [reflexivity|]. intros (c & s & H).
  pose proof (H (5#2) eq_refl eq_refl) as A. pose proof (H (14#5) eq_refl eq_refl) as B.
  pose proof (H (7#2) eq_refl eq_refl) as D.
  assert (A' : pulse_eval (mkPulse 0 1 0 1 1 5 3 1000) (5#2) == 1) by reflexivity.
  assert (B' : pulse_eval (mkPulse 0 1 0 1 1 5 3 1000) (14#5) == 1) by reflexivity.
  assert (D' : pulse_eval (mkPulse 0 1 0 1 1 5 3 1000) (7#2) == 1#2) by reflexivity.
  lra.
Qed.

Example C36_case : sane_pulse (mkPulse 0 1 1 1 1 2 10 1000) /\ periodic (mkPulse 0 1 1 1 1 2 10 1000) /\
  rise (mkPulse 0 1 1 1 1 2 10 1000) + width (mkPulse 0 1 1 1 1 2 10 1000) + fall (mkPulse 0 1 1 1 1 2 10 1000) <= 10 /\
  pulse_eval (mkPulse 0 1 1 1 1 2 10 1000) (23#2) == 1#2 /\
  pulse_review (mkPulse 0 1 1 1 1 2 10 1000) (23#2) (1#100) == 12.
Proof. repeat split; vm_compute; try reflexivity; discriminate. Qed.

Print Assumptions C36_value.
Print Assumptions C36_repeats.
Print Assumptions C36_announced.
Print Assumptions C36_long_pulse_refuted.
