(* C28, C29, C30: table interpolation, piecewise linear sources, delay lines *)
Require Import ZArith QArith Qabs Lqa Lia List Bool.
Require Import Verif.Qnum Verif.Interp_Model Verif.Interp_Proofs.
Import ListNotations.
Local Open Scope Q_scope.

(* strictly increasing keys *)
Definition increasing (t : list (Q * Q)) : Prop :=
  forall i j, (i < j)%nat -> (j < length t)%nat -> fst (nth i t (0, 0)) < fst (nth j t (0, 0)).
(* keys that do not decrease *)
Definition not_decreasing (t : list (Q * Q)) : Prop :=
  forall i j, (i <= j)%nat -> (j < length t)%nat -> fst (nth i t (0, 0)) <= fst (nth j t (0, 0)).
Definition K (t : list (Q * Q)) (i : nat) : Q := fst (nth i t (0, 0)).
Definition V (t : list (Q * Q)) (i : nat) : Q := snd (nth i t (0, 0)).

(* r is a value on the straight line through (x0,y0) with slope s, and reports that slope *)
Definition on_line (r : res fpoly) (x x0 y0 s : Q) : Prop :=
  exists p, r = Val p /\ fx p = x /\ f1 p == s /\ f0 p == y0 + s * (x - x0).

Lemma inc_nondec : forall t, increasing t -> not_decreasing t.
Proof.
  intros t H i j Hij Hj. destruct (Nat.eq_dec i j) as [-> |N]; [lra|].
  apply Qlt_le_weak. apply H; lia.
Qed.

Lemma copy1 : forall t, copies 1 t = t.
Proof. intros. apply app_nil_r. Qed.

(* between two neighbouring points *)
Theorem C28_inside : forall t x below above i, not_decreasing t -> (S i < length t)%nat ->
  K t i <= x -> x < K t (S i) ->
  on_line (interpolate t x below above) x (K t i) (V t i) ((V t (S i) - V t i) / (K t (S i) - K t i)).
Proof.
  intros t x below above i Hs Hi H1 H2. rewrite <- (copy1 t).
  rewrite (interp_inner 1 t ltac:(lia) Hs ltac:(lia) x below above i Hi H1 H2), copy1.
  eexists. split; [reflexivity|]. cbn. split; [reflexivity|]. split; [reflexivity|].
  unfold K, V, key, valu. ring.
Qed.

(* before the first point *)
Theorem C28_before : forall t x below above, not_decreasing t -> (2 <= length t)%nat -> x < K t 0 ->
  match below with
  | Some b => on_line (interpolate t x below above) x (K t 0) (V t 0) b
  | None => K t 0 < K t 1 ->
      on_line (interpolate t x below above) x (K t 0) (V t 0) ((V t 1 - V t 0) / (K t 1 - K t 0))
  end.
Proof.
  intros t x below above Hs Hn H. rewrite <- (copy1 t).
  rewrite (interp_low 1 t ltac:(lia) Hs Hn x below above H), copy1.
  destruct below as [b|].
  - eexists. split; [reflexivity|]. cbn. split; [reflexivity|]. split; [reflexivity|]. unfold K, V, key, valu. ring.
  - intros HK. destruct (qleb_spec (key t 1) (key t 0)) as [L|L]; [unfold K, key in *; lra|].
    eexists. split; [reflexivity|]. cbn. split; [reflexivity|]. split; [reflexivity|]. unfold K, V, key, valu. ring.
Qed.

(* after the last point *)
Theorem C28_after : forall t x below above, not_decreasing t -> (2 <= length t)%nat ->
  let n := length t in K t (n - 1) < x ->
  match above with
  | Some a => on_line (interpolate t x below above) x (K t (n - 1)) (V t (n - 1)) a
  | None => K t (n - 2) < K t (n - 1) ->
      on_line (interpolate t x below above) x (K t (n - 1)) (V t (n - 1))
        ((V t (n - 1) - V t (n - 2)) / (K t (n - 1) - K t (n - 2)))
  end.
Proof.
  intros t x below above Hs Hn n H. rewrite <- (copy1 t).
  rewrite (interp_high 1 t ltac:(lia) Hs Hn x below above) by (unfold K, key in *; fold n; lra).
  rewrite copy1. fold n. destruct above as [a|].
  - destruct (qltb_spec (key t (n - 1)) x) as [L|L]; [|unfold K, key in *; lra].
    eexists. split; [reflexivity|]. cbn. split; [reflexivity|]. split; [reflexivity|]. unfold K, V, key, valu. ring.
  - intros HK. destruct (qleb_spec (key t (n - 1)) (key t (n - 2))) as [L|L]; [unfold K, key in *; lra|].
    eexists. split; [reflexivity|]. cbn [fx f0 f1]. replace (S (n - 2)) with (n - 1)%nat by lia.
    split; [reflexivity|]. split; [reflexivity|].
    unfold K, V, key, valu in *. field. lra.
Qed.

(* one point: constant, unless a slope is given *)
Theorem C28_single : forall p x below above,
  on_line (interpolate [p] x below above) x (fst p) (snd p)
    (if qltb x (fst p) then match below with Some b => b | None => 0 end
     else match above with Some a => a | None => 0 end).
Proof.
  intros. eexists. split; [reflexivity|]. cbn [fx f0 f1]. split; [reflexivity|]. split; [reflexivity|]. ring.
Qed.

(* on the closed interval between neighbours the value is that of the line through both:
   hence the value is continuous, and each stored value is returned at its key *)
Theorem C28_segment : forall t x below above i, increasing t -> (S i < length t)%nat ->
  K t i <= x -> x <= K t (S i) ->
  exists p, interpolate t x below above = Val p /\
    f0 p == V t i + (V t (S i) - V t i) / (K t (S i) - K t i) * (x - K t i).
Proof.
  intros t x below above i Hs Hi H1 H2. pose proof (inc_nondec _ Hs) as Hd.
  assert (L0 : K t i < K t (S i)) by (apply Hs; lia).
  destruct (Qlt_le_dec x (K t (S i))) as [L|L].
  - destruct (C28_inside t x below above i Hd Hi H1 L) as (p & E & _ & _ & F). now exists p.
  - assert (EX : x == K t (S i)) by lra.
    assert (EV : V t i + (V t (S i) - V t i) / (K t (S i) - K t i) * (x - K t i) == V t (S i)).
    { rewrite EX. field. lra. }
    destruct (le_lt_dec (length t) (S (S i))) as [Hl|Hl].
    + assert (Ei : (length t - 1 = S i)%nat) by lia. assert (Ei2 : (length t - 2 = i)%nat) by lia.
      rewrite <- (copy1 t). rewrite (interp_high 1 t ltac:(lia) Hd ltac:(lia) x below above) by (rewrite Ei; exact L).
      rewrite copy1, Ei, Ei2.
      destruct (qltb_spec (key t (S i)) x) as [B|B]; [unfold K, key in *; lra|].
      destruct (qleb_spec (key t (S i)) (key t i)) as [C|C]; [unfold K, key in *; lra|].
      destruct above; (eexists; split; [reflexivity|]; cbn [f0]; unfold K, V, key, valu; ring).
    + assert (L2 : K t (S i) < K t (S (S i))) by (apply Hs; lia).
      destruct (C28_inside t x below above (S i) Hd Hl L ltac:(lra)) as (p & E & _ & _ & F).
      exists p. split; [exact E|]. rewrite F, EV, EX. ring.
Qed.

Theorem C28_at_points : forall t i below above, increasing t -> (i < length t)%nat ->
  exists p, interpolate t (K t i) below above = Val p /\ f0 p == V t i.
Proof.
  intros t i below above Hs Hi. destruct (le_lt_dec (length t) (S i)) as [Hl|Hl].
  - destruct i as [|i].
    + destruct t as [|p [|p' t]]; cbn in Hl, Hi; try lia.
      eexists. split; [reflexivity|]. cbn [f0]. unfold K, V; cbn [nth]. ring.
    + assert (L0 : K t i < K t (S i)) by (apply Hs; lia).
      destruct (C28_segment t (K t (S i)) below above i Hs Hi ltac:(lra) ltac:(lra)) as (p & E & F).
      exists p. split; [exact E|]. rewrite F. field. lra.
  - assert (L0 : K t i < K t (S i)) by (apply Hs; lia).
    destruct (C28_segment t (K t i) below above i Hs Hl ltac:(lra) ltac:(lra)) as (p & E & F).
    exists p. split; [exact E|]. rewrite F. field. lra.
Qed.

(* whatever the table, the code never reads outside it; an empty table is reported *)
Theorem C28_safe : forall t x below above, interpolate t x below above <> UB /\
  (t = [] -> interpolate t x below above = Throw).
Proof.
  intros t x below above. split; [|now intros ->].
  destruct t as [|p [|p' r]]; [discriminate|discriminate|].
  set (t := p :: p' :: r). assert (Hn : (2 <= length t)%nat) by (cbn; lia).
  destruct (upper_bound_spec t x (length t) 1 (length t - 1 - 1)) as (u & E & B & _ & _); [lia|lia|].
  unfold interpolate. unfold t at 1. cbn iota. rewrite E.
  rewrite !nth_error_key by lia. cbn [fst snd].
  destruct above, below;
    repeat match goal with |- context [if ?b then _ else _] => destruct b end; discriminate.
Qed.

(* a repeated last key makes the last point an error *)
Theorem C28_final_step_refuted : exists t, not_decreasing t /\
  (exists raw, pwl_precalc raw [] = (t, true)) /\
  pwl_eval true t (K t (length t - 1)) = Throw.
Proof.
  exists [(0, 0); (1, 1); (1, 2)]. split; [|split].
  - intros i j Hij Hj. cbn in Hj.
    destruct i as [|[|[|i]]]; destruct j as [|[|[|j]]]; try lia; vm_compute; discriminate.
  - exists [(0, 0); (1, 1); (1, 2)]. reflexivity.
  - reflexivity.
Qed.

(* ---------- C29 ---------- *)

(* preparing k times, starting from nothing *)
Fixpoint prepared (k : nat) (raw : list (Q * Q)) : list (Q * Q) :=
  match k with O => [] | S k' => pwl_prepare raw (prepared k' raw) end.

Lemma prepared_copies : forall k raw, not_decreasing raw -> prepared k raw = copies k raw.
Proof.
  induction k; intros raw Hs; [reflexivity|]. cbn [prepared]. rewrite IHk by assumption.
  unfold pwl_prepare, pwl_precalc. rewrite pwl_push_sorted; [|exact Hs|discriminate].
  cbn [fst]. symmetry. apply copies_snoc.
Qed.

(* with two or more points, preparing again changes nothing *)
Theorem C29_unchanged : forall raw k src x, not_decreasing raw -> (2 <= length raw)%nat -> (1 <= k)%nat ->
  pwl_eval src (prepared k raw) x = pwl_eval src raw x.
Proof.
  intros raw k src x Hs Hn Hk. rewrite prepared_copies by assumption. unfold pwl_eval.
  set (ext := if src then Some 0 else None).
  transitivity (interpolate (copies 1 raw) x ext ext); [|now rewrite copy1].
  destruct (Qlt_le_dec x (key raw 0)) as [L|L].
  - now rewrite !interp_low by (auto; lia).
  - destruct (Qlt_le_dec x (key raw (length raw - 1))) as [U|U].
    + destruct (find_interval raw x Hs ltac:(lia) L U) as (i & Hi & H1 & H2).
      now rewrite !(interp_inner) with (i := i) by (auto; lia).
    + now rewrite !interp_high by (auto; lia).
Qed.

(* the next corner is announced, also after any number of preparations *)
Theorem C29_next_corner : forall raw k now dtmin, not_decreasing raw -> (1 <= k)%nat ->
  exists r, pwl_review (prepared k raw) now dtmin = Val r /\
  match r with
  | Some e => now + dtmin * 2 < e /\ In e (map fst raw) /\
              (forall p, In p raw -> now + dtmin * 2 < fst p -> e <= fst p)
  | None => forall p, In p raw -> fst p <= now + dtmin * 2
  end.
Proof.
  intros raw k now dtmin Hs Hk. rewrite prepared_copies by assumption.
  unfold pwl_review. set (x := now + dtmin * 2). set (T := copies k raw).
  pose proof (copies_length k raw) as CL. fold T in CL. set (n := length raw) in *.
  destruct (upper_bound_spec T x (length T) 0 (length T)) as (u & E & B & A & C); [lia|lia|].
  rewrite E.
  assert (KT : forall q r, (q < k)%nat -> (r < n)%nat -> key T (q * n + r) = key raw r).
  { intros q' r' H1 H2. unfold key, T, n. now rewrite nth_copies. }
  assert (IN : forall p, In p raw -> exists j, (j < n)%nat /\ key raw j = fst p).
  { intros p Hp. destruct (In_nth raw p (0, 0) Hp) as (j & Hj & Ej). exists j. split; [exact Hj|].
    unfold key. now rewrite Ej. }
  destruct (Nat.eqb_spec u (length T)) as [EQ|NE].
  - exists None. split; [reflexivity|]. intros p Hp. destruct (IN p Hp) as (j & Hj & Ej).
    assert (P : key T (u - 1) <= x) by (apply A; rewrite EQ, CL; clear - Hk Hj; nia).
    replace (u - 1)%nat with ((k - 1) * n + (n - 1))%nat in P by (rewrite EQ, CL; clear - Hk Hj; nia).
    rewrite KT in P by lia. pose proof (Hs j (n - 1)%nat ltac:(lia) ltac:(fold n; lia)) as M.
    rewrite <- Ej. unfold key in *. lra.
  - assert (Hu : (u < length T)%nat) by lia. assert (Ux : x < key T u) by (apply C; lia).
    rewrite nth_error_key by lia. cbn [fst]. destruct (qltb_spec x (key T u)) as [_|F]; [|contradiction].
    exists (Some (key T u)). split; [reflexivity|]. split; [exact Ux|].
    assert (Hn : (0 < n)%nat) by (clear - Hu CL; nia).
    destruct (split_index n u Hn) as (q & r & Eu & Hr).
    assert (Hq : (q < k)%nat) by (clear - Eu Hu CL Hn; nia).
    assert (Ku : key T u = key raw r) by (rewrite Eu; apply KT; assumption).
    rewrite Ku in *. split.
    + unfold key. apply in_map. apply nth_In. exact Hr.
    + intros p Hp Hx. destruct (IN p Hp) as (j & Hj & Ej). rewrite <- Ej in *.
      destruct r as [|r]; [apply Hs; [lia|exact Hj]|].
      assert (P : key T (u - 1) <= x) by (apply A; lia).
      replace (u - 1)%nat with (q * n + r)%nat in P by lia. rewrite KT in P by lia.
      destruct (le_lt_dec (S r) j) as [G|G]; [apply Hs; [lia|exact Hj]|].
      pose proof (Hs j r ltac:(lia) ltac:(fold n; lia)) as M. unfold key in *. lra.
Qed.

(* a source with a single point cannot be evaluated at that point once it was prepared twice *)
Theorem C29_single_point_refuted : exists raw x v, not_decreasing raw /\
  pwl_eval true (prepared 1 raw) x = Val v /\ pwl_eval true (prepared 2 raw) x = Throw.
Proof.
  exists [(0, 5)], 0. eexists. split; [|split; [reflexivity|reflexivity]].
  intros i j Hij Hj. cbn in Hj. assert (i = O /\ j = O)%nat as [-> ->] by lia. lra.
Qed.

(* after a change of the points the old ones are still used *)
Theorem C29_changed_refuted : exists raw raw' x v v', not_decreasing raw /\ not_decreasing raw' /\
  pwl_eval true (pwl_prepare raw' []) x = Val v' /\
  pwl_eval true (pwl_prepare raw' (pwl_prepare raw [])) x = Val v /\ ~ f0 v == f0 v'.
Proof.
  exists [(0, 0); (2, 2)], [(1, 5); (2, 6)], (1#2).
  do 2 eexists. split; [|split; [|split; [reflexivity|split; [reflexivity|]]]].
  - intros i j Hij Hj. cbn in Hj. destruct i as [|[|i]]; destruct j as [|[|j]]; try lia; vm_compute; discriminate.
  - intros i j Hij Hj. cbn in Hj. destruct i as [|[|i]]; destruct j as [|[|j]]; try lia; vm_compute; discriminate.
  - vm_compute. discriminate.
Qed.

(* ---------- C30 ---------- *)

(* a line with the given delay that was fed the given samples *)
Definition fed (d : Q) (samples : list (Q * Q)) : wave :=
  fold_left (fun a s => wave_push a (fst s) (snd s)) samples (wave_init d).

Lemma fed_table : forall d samples,
  fed d samples = mk_wave (map (fun s => (fst s + d, snd s)) samples) d.
Proof.
  intros d samples. unfold fed, wave_init.
  assert (G : forall l acc, fold_left (fun a s => wave_push a (fst s) (snd s)) l (mk_wave acc d)
      = mk_wave (acc ++ map (fun s => (fst s + d, snd s)) l) d).
  { induction l as [|s l IH]; intros acc; cbn [fold_left map]; [now rewrite app_nil_r|].
    unfold wave_push at 2. cbn [w delay]. rewrite IH, <- app_assoc. reflexivity. }
  apply G.
Qed.

Lemma shifted : forall d samples i, (i < length samples)%nat ->
  K (map (fun s => (fst s + d, snd s)) samples) i = K samples i + d /\
  V (map (fun s => (fst s + d, snd s)) samples) i = V samples i.
Proof.
  intros d samples i H. unfold K, V.
  rewrite (nth_indep _ (0, 0) ((fun s => (fst s + d, snd s)) (0, 0))) by (now rewrite map_length).
  rewrite (map_nth (fun s => (fst s + d, snd s))). auto.
Qed.

Lemma shifted_inc : forall d samples, increasing samples ->
  increasing (map (fun s => (fst s + d, snd s)) samples).
Proof.
  intros d samples H i j Hij Hj. rewrite map_length in Hj.
  pose proof (proj1 (shifted d samples i ltac:(lia))) as E1.
  pose proof (proj1 (shifted d samples j ltac:(lia))) as E2. unfold K in *. rewrite E1, E2.
  pose proof (H i j Hij Hj). lra.
Qed.

(* the output at t is the input of t - d *)
Theorem C30_delayed : forall d samples t i, increasing samples -> (S i < length samples)%nat ->
  K samples i <= t - d -> t - d <= K samples (S i) ->
  exists p, v_out (fed d samples) t = Val p /\
    f0 p == V samples i + (V samples (S i) - V samples i) / (K samples (S i) - K samples i) * (t - d - K samples i).
Proof.
  intros d samples t i Hs Hi H1 H2. rewrite fed_table. unfold v_out. cbn [w].
  destruct (shifted d samples i ltac:(lia)) as [K1 V1]. destruct (shifted d samples (S i) Hi) as [K2 V2].
  destruct (C28_segment (map (fun s => (fst s + d, snd s)) samples) t (Some 0) (Some 0) i) as (p & E & F).
  - now apply shifted_inc.
  - now rewrite map_length.
  - rewrite K1; lra.
  - rewrite K2; lra.
  - exists p. split; [exact E|]. rewrite F, K1, V1, K2, V2.
    assert (K samples i < K samples (S i)) by (apply Hs; lia). field. lra.
Qed.

(* before the first and after the last sample the end values are held *)
Theorem C30_ends_held : forall d samples t, increasing samples -> (1 <= length samples)%nat ->
  exists p, v_out (fed d samples) t = Val p /\
    (t - d <= K samples 0 -> f0 p == V samples 0) /\
    (K samples (length samples - 1) <= t - d -> f0 p == V samples (length samples - 1)).
Proof.
  intros d samples t Hs Hn. rewrite fed_table. unfold v_out. cbn [w].
  set (T := map (fun s => (fst s + d, snd s)) samples).
  assert (HT : increasing T) by now apply shifted_inc.
  assert (LT : length T = length samples) by apply map_length.
  destruct (shifted d samples 0 ltac:(lia)) as [K0 V0]. fold T in K0, V0.
  destruct (shifted d samples (length samples - 1) ltac:(lia)) as [K1 V1]. fold T in K1, V1.
  assert (K0' : K T 0 == K samples 0 + d) by (rewrite K0; reflexivity).
  assert (K1' : K T (length samples - 1) == K samples (length samples - 1) + d) by (rewrite K1; reflexivity).
  destruct (le_lt_dec (length T) 1) as [L1|L1].
  - destruct T as [|a [|b T']] eqn:ET; cbn in L1, LT; try lia.
    eexists. split; [reflexivity|]. cbn [f0]. rewrite <- V0, <- V1.
    replace (length samples - 1)%nat with O by lia. unfold V; cbn [nth].
    split; intros _; destruct (qltb t (fst a)); ring.
  - rewrite <- LT in *.
    destruct (Qlt_le_dec t (K T 0)) as [A|A].
    + destruct (C28_before T t (Some 0) (Some 0) (inc_nondec _ HT) L1 A) as (p & E & _ & _ & F).
      exists p. split; [exact E|]. split.
      * intros _. rewrite F, V0. ring.
      * intros H. exfalso. assert (K T 0 < K T (length T - 1)) by (apply HT; lia). lra.
    + destruct (Qlt_le_dec (K T (length T - 1)) t) as [B|B].
      * destruct (C28_after T t (Some 0) (Some 0) (inc_nondec _ HT) L1 B) as (p & E & _ & _ & F).
        exists p. split; [exact E|]. split.
        -- intros H. exfalso. assert (K T 0 < K T (length T - 1)) by (apply HT; lia). lra.
        -- intros _. rewrite F, V1. ring.
      * assert (Fin : exists i, (S i < length T)%nat /\ K T i <= t /\ t <= K T (S i)).
        { destruct (Qlt_le_dec t (K T (length T - 1))) as [C|C].
          - destruct (find_interval T t (inc_nondec _ HT) ltac:(lia) A C) as (i & Hi & H1 & H2).
            exists i. split; [exact Hi|]. split; [exact H1|]. unfold K, key in *. lra.
          - exists (length T - 2)%nat. replace (S (length T - 2)) with (length T - 1)%nat by lia.
            split; [lia|]. split; [|exact B].
            assert (K T (length T - 2) < K T (length T - 1)) by (apply HT; lia). lra. }
        destruct Fin as (i & Hi & H1 & H2).
        destruct (C28_segment T t (Some 0) (Some 0) i HT Hi H1 H2) as (p & E & F).
        exists p. split; [exact E|]. rewrite F.
        assert (Ki : K T i < K T (S i)) by (apply HT; lia).
        split; intros H.
        -- assert (Et : t == K T 0) by lra.
           destruct i as [|i]; [|assert (K T 0 < K T (S i)) by (apply HT; lia); lra].
           rewrite Et, V0. ring.
        -- assert (Et : t == K T (length T - 1)) by lra.
           destruct (le_lt_dec (length T - 1) (S i)) as [G|G].
           ++ assert (S i = length T - 1)%nat as Ei by lia. rewrite <- V1, <- Ei. rewrite Et, <- Ei. field. lra.
           ++ assert (K T (S i) < K T (length T - 1)) by (apply HT; lia). lra.
Qed.

(* reflection: twice the total less the incident wave, differences below the round-off
   tolerance (relative to the total) being taken as zero *)
Theorem C30_reflection : forall tol a t v p, 0 <= tol -> v_out a t = Val p ->
  exists r, v_reflect tol a t v = Val r /\
    (r == 2 * v - f0 p \/ (r == 0 /\ Qabs (2 * v - f0 p) < Qabs (2 * v) * tol)).
Proof.
  intros tol a t v p T E. unfold v_reflect. rewrite E. eexists. split; [reflexivity|].
  unfold dn_diff. destruct (qltb_spec (Qabs (v * 2 - f0 p)) (Qabs (v * 2 * tol))) as [L|L].
  - right. split; [reflexivity|]. rewrite Qabs_Qmult, (Qabs_pos tol) in L by assumption.
    assert (E2 : v * 2 == 2 * v) by ring. rewrite !E2 in L. exact L.
  - left. ring.
Qed.

(* ---------- cases ---------- *)

Definition tab3 : list (Q * Q) := [(0, 1); (2, 5); (3, 2)].
Lemma tab3_inc : increasing tab3.
Proof.
  intros i j Hij Hj. cbn in Hj. destruct i as [|[|[|i]]]; destruct j as [|[|[|j]]]; try lia; reflexivity.
Qed.
Example C28_case : increasing tab3 /\
  (exists p, interpolate tab3 1 None None = Val p /\ f0 p == 3 /\ f1 p == 2) /\
  (exists p, interpolate tab3 5 None None = Val p /\ f0 p == -4) /\
  (exists p, interpolate tab3 (-1) (Some 10) None = Val p /\ f0 p == -9).
Proof.
  split; [exact tab3_inc|]. split; [|split]; eexists; (split; [reflexivity|]);
    [split; vm_compute; reflexivity| |]; vm_compute; reflexivity.
Qed.

Example C29_case : not_decreasing tab3 /\ prepared 3 tab3 = tab3 ++ tab3 ++ tab3 /\
  (exists p, pwl_eval true (prepared 3 tab3) (5#2) = Val p /\ f0 p == 7#2) /\
  pwl_review (prepared 3 tab3) 1 (1#10) = Val (Some 2).
Proof.
  split; [apply inc_nondec, tab3_inc|]. split; [reflexivity|]. split.
  - eexists; (split; [reflexivity|]); vm_compute; reflexivity.
  - reflexivity.
Qed.

Example C30_case : exists p, v_out (fed 10 tab3) 11 = Val p /\ f0 p == 3 /\
  exists r, v_reflect (1#1000) (fed 10 tab3) 11 4 = Val r /\ r == 5.
Proof.
  eexists; (split; [reflexivity|]); split; [vm_compute; reflexivity|].
  eexists; (split; [reflexivity|]); vm_compute; reflexivity.
Qed.

Print Assumptions C28_inside.
Print Assumptions C28_before.
Print Assumptions C28_after.
Print Assumptions C28_single.
Print Assumptions C28_segment.
Print Assumptions C28_at_points.
Print Assumptions C28_safe.
Print Assumptions C28_final_step_refuted.
Print Assumptions C29_unchanged.
Print Assumptions C29_next_corner.
Print Assumptions C29_single_point_refuted.
Print Assumptions C29_changed_refuted.
Print Assumptions C30_delayed.
Print Assumptions C30_ends_held.
Print Assumptions C30_reflection.
