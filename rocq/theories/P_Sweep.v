(* C26, C27: the points visited by DC and AC sweeps *)
Require Import ZArith QArith Qpower Qabs Qround Lqa Lia List Bool.
Require Import Verif.Loops Verif.Qnum Verif.Sweep_Model Verif.Sweep_Proofs.
Import ListNotations.
Local Open Scope Q_scope.

(* a sweep of one quantity visits exactly the values xs (for any sufficient fuel: it ends) *)
Definition visits (tol : Q) (c : swp) (xs : list Q) : Prop :=
  exists F0, forall F, (F0 <= F)%nat -> sweep_recursive F tol [c] [] = Some (map (fun x => [x]) xs).

(* x is the point start + k*step, up to the amount that fixzero may remove *)
Definition near (tol : Q) (c : swp) (x : Q) (k : nat) : Prop :=
  Qabs (x - (start c + inject_Z (Z.of_nat k) * step c)) <= tol * Qabs (step c).

(* n is the number of whole steps that fit between start and stop, a tenth of a step over
   being allowed (and tol for the numbers that fixzero changed) *)
Definition fits (tol : Q) (c : swp) (n : nat) : Prop :=
  let L := (stop c - start c) / step c in
  (n = O \/ inject_Z (Z.of_nat n) <= L + (1#10) + tol) /\ L + (1#10) < inject_Z (Z.of_nat n) + 1 + tol.

(* a linear sweep with a usable step *)
Definition linear (tol : Q) (c : swp) : Prop :=
  lin c = true /\ ~ step c == 0 /\ 0 <= tol <= 1#20.

(* stop is on the side of start to which step points *)
Definition towards (c : swp) : Prop := 0 <= (stop c - start c) / step c.

Lemma Forall2_imp : forall {A B} (R R' : A -> B -> Prop) l l', (forall a b, R a b -> R' a b) ->
  Forall2 R l l' -> Forall2 R' l l'.
Proof. intros A B R R' l l' H F; induction F; constructor; auto. Qed.

Lemma fits_of : forall tol c n w, linear tol c -> Ilin tol c w (Z.of_nat n) ->
  ((n > 0)%nat -> in_window c w = true) -> in_window c (upv tol c w) = false -> fits tol c n.
Proof.
  intros tol c n w (Hl & NZ & T0 & T) Hw W E. split.
  - destruct n; [now left|right]. pose proof (lin_window tol c Hl NZ T T0 w (Z.of_nat (S n)) ltac:(lia) Hw (W ltac:(lia))) as B.
    fold (reach c). lra.
  - pose proof (Ilin_up tol c Hl T T0 NZ w (Z.of_nat n) ltac:(lia) Hw) as U.
    pose proof (lin_window_no tol c Hl NZ T T0 _ (Z.of_nat n + 1)%Z ltac:(lia) U E) as B.
    rewrite inj_plus1 in B. fold (reach c). lra.
Qed.

Lemma near_of : forall tol c l k, linear tol c ->
  Forall2 (fun v j => Ilin tol c v (Z.of_nat j)) l k -> Forall2 (near tol c) l k.
Proof.
  intros tol c l k (Hl & NZ & T0 & T) H. revert H. apply Forall2_imp.
  intros v j. apply Ilin_near; assumption.
Qed.

(* C26: forward *)
Theorem C26_forward : forall tol c, linear tol c -> loop c = false -> reverse_in c = false ->
  exists n xs, visits tol c xs /\ fits tol c n /\ Forall2 (near tol c) xs (seq 0 (S n)).
Proof.
  intros tol c HL L R. pose proof HL as (Hl & NZ & T0 & T).
  destruct (lin_bound tol c Hl NZ T T0) as [N HN].
  destruct (sweep_fwd tol c (Ilin tol c) N (lin_stepping c Hl NZ) (lin_I0 tol c)
              (Ilin_up tol c Hl T T0 NZ) HN L R) as (n & xs & w & F0 & V & F & Iw & W & E).
  exists n, xs. repeat split.
  - exists F0. exact V.
  - eapply fits_of; eauto.
  - eapply fits_of; eauto.
  - now apply near_of.
Qed.

(* C26: "loop" goes up and back down *)
Theorem C26_loop : forall tol c, linear tol c -> towards c -> loop c = true -> reverse_in c = false ->
  exists n xs, visits tol c xs /\ fits tol c n /\
    Forall2 (near tol c) xs (seq 0 (S n) ++ rev (seq 0 n)).
Proof.
  intros tol c HL D L R. pose proof HL as (Hl & NZ & T0 & T).
  destruct (lin_bound tol c Hl NZ T T0) as [N HN].
  destruct (sweep_loop tol c (Ilin tol c) N (lin_stepping c Hl NZ) (lin_I0 tol c)
              (Ilin_up tol c Hl T T0 NZ) HN (Ilin_dn tol c Hl T T0 NZ) (lin_mono tol c Hl NZ T T0)
              (lin_low tol c Hl NZ T T0 D) L R)
    as (n & xs & w & F0 & V & F & Iw & W & E).
  exists n, xs. repeat split.
  - exists F0. exact V.
  - eapply fits_of; eauto.
  - eapply fits_of; eauto.
  - now apply near_of.
Qed.

(* C26: "reverse" visits the points in the opposite order, but without the last one: the
   full statement, with rev (seq 0 (S n)), is refuted below *)
Theorem C26_reverse_partial : forall tol c, linear tol c -> towards c -> loop c = false -> reverse_in c = true ->
  exists n xs, visits tol c xs /\ fits tol c n /\
    Forall2 (near tol c) xs (match n with O => [O] | _ => rev (seq 0 n) end).
Proof.
  intros tol c HL D L R. pose proof HL as (Hl & NZ & T0 & T).
  destruct (lin_bound tol c Hl NZ T T0) as [N HN].
  destruct (sweep_rev tol c (Ilin tol c) N (lin_stepping c Hl NZ) (lin_I0 tol c)
              (Ilin_up tol c Hl T T0 NZ) HN (Ilin_dn tol c Hl T T0 NZ) (lin_mono tol c Hl NZ T T0)
              (lin_low tol c Hl NZ T T0 D) L R)
    as (n & xs & w & F0 & V & F & Iw & W & E).
  exists n, xs. repeat split.
  - exists F0. exact V.
  - eapply fits_of; eauto.
  - eapply fits_of; eauto.
  - now apply near_of.
Qed.

(* n counts correctly: when stop is on the grid, it is the last point *)
Theorem C26_reaches_stop : forall tol c (N n : nat), linear tol c ->
  stop c == start c + inject_Z (Z.of_nat N) * step c -> fits tol c n -> n = N.
Proof.
  intros tol c N n (Hl & NZ & T0 & T) E [A B].
  assert (EL : (stop c - start c) / step c == inject_Z (Z.of_nat N)) by (rewrite E; field; auto).
  rewrite EL in A, B.
  assert (B' : inject_Z (Z.of_nat N) < inject_Z (Z.of_nat n + 2)).
  { rewrite inject_Z_plus. change (inject_Z 2) with 2. lra. }
  assert (B2 : (N <= n)%nat).
  { destruct (le_lt_dec N n) as [|H]; auto. exfalso.
    assert (H' : (Z.of_nat n + 1 <= Z.of_nat N)%Z) by lia. apply inj_le in H'. rewrite inj_plus1 in H'. lra. }
  destruct A as [-> |A]; [lia|].
  destruct (le_lt_dec n N) as [|H]; [lia|]. exfalso.
  assert (H' : (Z.of_nat N + 1 <= Z.of_nat n)%Z) by lia. apply inj_le in H'. rewrite inj_plus1 in H'. lra.
Qed.

(* when no grid point is tiny without being zero, the points are exact and their number is
   the whole part of the distance in steps plus a tenth *)
Theorem C26_exact : forall tol c, linear tol c -> towards c -> loop c = false -> reverse_in c = false ->
  (forall k : Z, start c + inject_Z k * step c == 0 \/
                 tol * Qabs (step c) <= Qabs (start c + inject_Z k * step c)) ->
  exists n xs, visits tol c xs /\ Z.of_nat n = Qfloor ((stop c - start c) / step c + (1#10)) /\
    Forall2 (fun x k => x == start c + inject_Z (Z.of_nat k) * step c) xs (seq 0 (S n)).
Proof.
  intros tol c HL D L R X. pose proof HL as (Hl & NZ & T0 & T).
  destruct (lin_bound tol c Hl NZ T T0) as [N HN].
  destruct (sweep_fwd tol c (Ilin tol c) N (lin_stepping c Hl NZ) (lin_I0 tol c)
              (Ilin_up tol c Hl T T0 NZ) HN L R) as (n & xs & w & F0 & V & F & Iw & W & E).
  assert (Ex : forall v k, Ilin tol c v k -> v == start c + inject_Z k * step c).
  { intros v k [Ev|(m & Hm & Ev)]; [exact Ev|]. unfold grid in Hm. destruct (X m) as [Z|Z]; [|lra].
    rewrite Ev, inj_minus.
    assert (Z2 : start c == - (inject_Z m * step c)) by lra. rewrite Z2. ring. }
  exists n, xs. split; [exists F0; exact V|]. split.
  - assert (A : inject_Z (Z.of_nat n) <= reach c + (1#10)).
    { destruct n; [change (inject_Z (Z.of_nat 0)) with 0; unfold towards in D; fold (reach c) in D; lra|].
      pose proof (Ex _ _ Iw) as Ew. assert (Wt := W ltac:(lia)).
      rewrite (window_units c _ w Hl NZ Ew), in_order_iff in Wt.
      assert (0 <= inject_Z (Z.of_nat (S n))) by (change 0 with (inject_Z 0); apply inj_le; lia).
      destruct Wt as [Wt|Wt]; lra. }
    assert (B : reach c + (1#10) < inject_Z (Z.of_nat n + 1)).
    { pose proof (Ex _ _ (Ilin_up tol c Hl T T0 NZ w (Z.of_nat n) ltac:(lia) Iw)) as Ew.
      rewrite (window_units c _ _ Hl NZ Ew) in E.
      destruct (Qlt_le_dec (reach c + (1#10)) (inject_Z (Z.of_nat n + 1))) as [|C]; auto.
      assert (0 <= inject_Z (Z.of_nat n + 1)) by (change 0 with (inject_Z 0); apply inj_le; lia).
      assert (in_order (-1 # 10) (inject_Z (Z.of_nat n + 1)) (reach c + (1 # 10)) = true); [|congruence].
      apply in_order_iff. left; lra. }
    fold (reach c). pose proof (Qfloor_le (reach c + (1#10))) as P1. pose proof (Qlt_floor (reach c + (1#10))) as P2.
    assert (C1 : inject_Z (Z.of_nat n) < inject_Z (Qfloor (reach c + (1#10)) + 1)) by lra.
    assert (C2 : inject_Z (Qfloor (reach c + (1#10))) < inject_Z (Z.of_nat n + 1)) by lra.
    rewrite <- Zlt_Qlt in C1, C2. lia.
  - revert F. apply Forall2_imp. intros v j. apply Ex.
Qed.

(* the factor sweeps: start * step^k, up and back *)
Definition logup (c : swp) : Prop :=
  lin c = false /\ 1 < step c /\ 0 < start c /\ start c <= stop c /\ 1 < fud c /\ fud c < step c.
Definition log_fits (c : swp) (n : nat) : Prop :=
  (n = O \/ start c * step c ^ Z.of_nat n <= stop c * fud c) /\
  stop c * fud c < start c * step c ^ (Z.of_nat n + 1).

Theorem C26_log : forall tol c, logup c -> reverse_in c = false ->
  exists n xs, visits tol c xs /\ log_fits c n /\
    Forall2 (fun x k => x == start c * step c ^ Z.of_nat k) xs
      (if loop c then seq 0 (S n) ++ rev (seq 0 n) else seq 0 (S n)).
Proof.
  intros tol c (Hl & S1 & P0 & P1 & F1 & F2) R.
  destruct (log_bound c Hl S1 P0 P1 F1) as [N HN].
  assert (LF : forall n w, Ilog c w (Z.of_nat n) -> ((n > 0)%nat -> in_window c w = true) ->
            in_window c (upv tol c w) = false -> log_fits c n).
  { intros n w Iw W E. split.
    - destruct n; [now left|right]. specialize (W ltac:(lia)).
      apply (log_window c Hl P0 P1 F1 _ _ Iw) in W. unfold Ilog in Iw. rewrite <- Iw. tauto.
    - pose proof (log_up tol c Hl S1 w (Z.of_nat n) ltac:(lia) Iw) as U.
      pose proof (log_ge c S1 P0 _ (Z.of_nat n + 1)%Z ltac:(lia) U) as G.
      pose proof (log_order c P0 P1 F1) as O.
      destruct (Qlt_le_dec (stop c * fud c) (start c * step c ^ (Z.of_nat n + 1))) as [|C]; auto.
      assert (in_window c (upv tol c w) = true); [|congruence].
      apply (log_window c Hl P0 P1 F1 _ _ U). unfold Ilog in U. split; [lra|]. rewrite U. exact C. }
  destruct (loop c) eqn:L.
  - destruct (sweep_loop tol c (Ilog c) N ltac:(apply log_stepping; assumption) (log_I0 c) ltac:(apply log_up; assumption) HN
        ltac:(apply log_dn; assumption) ltac:(apply log_mono; assumption) ltac:(apply log_low; assumption) L R)
      as (n & xs & w & F0 & V & F & Iw & W & E).
    exists n, xs. split; [exists F0; exact V|]. split; [eauto|]. exact F.
  - destruct (sweep_fwd tol c (Ilog c) N ltac:(apply log_stepping; assumption) (log_I0 c) ltac:(apply log_up; assumption) HN L R)
      as (n & xs & w & F0 & V & F & Iw & W & E).
    exists n, xs. split; [exists F0; exact V|]. split; [eauto|]. exact F.
Qed.

(* C26: nested sweeps visit every combination, the inner ones fastest *)
Theorem C26_nested : forall tol cs ls,
  Forall2 (fun c l => visits tol c l) cs ls ->
  exists F0, forall F, (F0 <= F)%nat -> sweep_recursive F tol cs [] = Some (product ls).
Proof.
  intros tol cs ls H.
  assert (G : exists F0, forall F, (F0 <= F)%nat ->
    Forall2 (fun c l => sweep_recursive F tol [c] [] = Some (map sing l)) cs ls).
  { induction H as [|c l cs ls [F1 HF] HR [F2 IH]].
    - exists O. constructor.
    - exists (F1 + F2)%nat. intros F HFF. constructor; [apply HF; lia|apply IH; lia]. }
  destruct G as [F0 G]. exists F0. intros F HF. rewrite (nested_env _ _ _ _ (G F HF)).
  f_equal. apply map_id.
Qed.

(* the order of the combinations: position i*m + j holds the i-th value of the outer sweep
   and the j-th of the inner one *)
Theorem C26_inner_fastest : forall l1 l2 i j d,
  (i < length l1)%nat -> (j < length l2)%nat ->
  nth (i * length l2 + j) (product [l1; l2]) d = [nth i l1 0; nth j l2 0].
Proof.
  intros l1 l2 i j d.
  assert (P2 : product [l2] = map (fun x => [x]) l2).
  { cbn. induction l2 as [|y l2 IH]; cbn; [reflexivity|]. now rewrite IH. }
  change (product [l1; l2]) with (flat_map (fun x => map (cons x) (product [l2])) l1). rewrite P2.
  clear P2.
  revert i. induction l1 as [|x l1 IH]; intros i Hi Hj; [cbn in Hi; lia|].
  cbn [flat_map]. destruct i as [|i].
  - cbn [Nat.mul Nat.add nth]. rewrite app_nth1 by (rewrite !map_length; lia).
    rewrite map_map. rewrite (nth_indep _ d [x; 0]) by (rewrite map_length; lia).
    change [x; 0] with ((fun y => [x; y]) 0). now rewrite map_nth.
  - rewrite app_nth2 by (rewrite !map_length; cbn; lia). rewrite !map_length.
    replace (S i * length l2 + j - length l2)%nat with (i * length l2 + j)%nat by (cbn; lia).
    cbn [nth]. apply IH; [cbn in Hi; lia|assumption].
Qed.

(* ---------- what does not hold ---------- *)

Definition sweep3 (rev lp : bool) : swp := mk_swp 0 3 1 true 1 lp rev.

(* a reverse sweep from 0 to 3 by 1 never analyses 3 *)
Theorem C26_reverse_refuted : exists c, linear (1 # 1000000) c /\ towards c /\ reverse_in c = true /\
  visits (1 # 1000000) (mk_swp (start c) (stop c) (step c) (lin c) (fud c) (loop c) false) [0; 1; 2; 3] /\
  visits (1 # 1000000) c [2; 1; 0].
Proof.
  exists (sweep3 true false). split; [|split; [|split; [|split]]].
  - split; [reflexivity|]. split; [discriminate|]. cbn; split; lra.
  - vm_compute; discriminate.
  - reflexivity.
  - exists 10%nat. intros F HF. replace F with (10 + (F - 10))%nat by lia. reflexivity.
  - exists 10%nat. intros F HF. replace F with (10 + (F - 10))%nat by lia. reflexivity.
Qed.

(* with both reverse and loop only the first point is analysed *)
Theorem C26_reverse_loop_refuted : exists c, linear (1 # 1000000) c /\ towards c /\
  reverse_in c = true /\ loop c = true /\ ~ start c == stop c /\ visits (1 # 1000000) c [start c].
Proof.
  exists (sweep3 true true). split; [|split; [|split; [|split; [|split]]]].
  - split; [reflexivity|]. split; [discriminate|]. cbn; split; lra.
  - vm_compute; discriminate.
  - reflexivity.
  - reflexivity.
  - discriminate.
  - exists 10%nat. intros F HF. replace F with (10 + (F - 10))%nat by lia. reflexivity.
Qed.

(* "lin 5" asks for five points; the count is used as the step *)
Theorem C26_lin_points_refuted : exists a b n, 2 < n /\ forall root,
  fix_args root LIN_PTS a b n = (n, true) /\
  visits (1 # 1000000) (mk_swp a b (fst (fix_args root LIN_PTS a b n)) true 1 false false) [0; 5; 10].
Proof.
  exists 0, 10, 5. split; [reflexivity|]. intros root. split; [reflexivity|].
  exists 10%nat. intros F HF. replace F with (10 + (F - 10))%nat by lia. reflexivity.
Qed.

(* no step given: start and stop are analysed, nothing between *)
Theorem C26_no_step : forall tol root a b, 0 <= tol <= 1#20 -> ~ a == b ->
  exists s n xs, fix_args root LIN_STEP a b 0 = (s, true) /\
    let c := mk_swp a b s true 1 false false in
    visits tol c xs /\ n = 1%nat /\ Forall2 (near tol c) xs (seq 0 (S n)) /\
    a + inject_Z 1 * s == b.
Proof.
  intros tol root a b T NE.
  set (c := mk_swp a b (b - a) true 1 false false).
  assert (HL : linear tol c).
  { split; [reflexivity|]. split; [|assumption]. cbn. intro. apply NE. lra. }
  destruct (C26_forward tol c HL eq_refl eq_refl) as (n & xs & V & Fi & Fo).
  assert (n = 1%nat).
  { apply (C26_reaches_stop tol c 1 n HL); [|assumption]. cbn. ring. }
  exists (b - a), n, xs. split; [reflexivity|]. repeat split; auto. ring.
Qed.

(* ---------- C27 ---------- *)

Definition ac_visits (c : acp) (fs : list Q) : Prop :=
  exists F0, forall F, (F0 < F)%nat -> ac_sweep F c = Some fs.

(* a linear AC sweep ends, visits start, start+step, ... and stops at the first of them that
   reaches stop, less a hundredth of a step *)
Theorem C27_linear : forall c, a_lin c = true -> ~ a_step c == 0 -> 0 < (a_stop c - a_start c) / a_step c ->
  exists n fs, ac_visits c fs /\
    Forall2 (fun f k => f == a_start c + inject_Z (Z.of_nat k) * a_step c) fs (seq 0 (S n)) /\
    (1 <= n)%nat /\ (n = 1%nat \/ inject_Z (Z.of_nat n) - 1 <= (a_stop c - a_start c) / a_step c - (1#100)) /\
    (a_stop c - a_start c) / a_step c - (1#100) < inject_Z (Z.of_nat n).
Proof.
  intros c Hl NZ D. destruct (ac_lin_run c Hl NZ) as (n & fs & F0 & L & P & _ & Q).
  destruct (Q D) as (Q1 & Q2 & Q3). exists n, fs. split; [exists F0; exact L|]. auto.
Qed.

(* the step leads away from stop, or there is nowhere to go: one point *)
Theorem C27_one_point : forall c, a_lin c = true -> ~ a_step c == 0 ->
  (a_stop c - a_start c) / a_step c <= 0 -> exists f, ac_visits c [f] /\ f == a_start c.
Proof.
  intros c Hl NZ D. destruct (ac_lin_run c Hl NZ) as (n & fs & F0 & L & P & Q & _).
  rewrite (Q D) in P. inversion P as [|f k fs' ks Hf Hr]; subst. inversion Hr; subst.
  exists f. split; [exists F0; exact L|]. rewrite Hf. unfold a_grid. cbn. ring.
Qed.

(* every frequency but the last lies before stop, and the last is less than a step past it *)
Theorem C27_before_stop : forall c, a_lin c = true -> 0 < a_step c -> a_start c < a_stop c ->
  exists fs l, ac_visits c (fs ++ [l]) /\
    Forall (fun f => a_start c <= f < a_stop c) fs /\
    a_stop c - a_step c / 100 < l < a_stop c + a_step c.
Proof.
  intros c Hl SP D. assert (NZ : ~ a_step c == 0) by lra.
  assert (RE : (a_stop c - a_start c) / a_step c * a_step c == a_stop c - a_start c) by (field; auto).
  assert (RP : 0 < (a_stop c - a_start c) / a_step c).
  { apply (Qmult_lt_r _ _ (a_step c)); auto. lra. }
  destruct (C27_linear c Hl NZ RP) as (n & fs & V & P & N1 & N2 & N3).
  rewrite seq_S in P. apply Forall2_app_inv_r in P. destruct P as (a & b & Pa & Pb & ->).
  inversion Pb as [|l k b' kk Hk Hb]; subst. inversion Hb; subst.
  exists a, l. split; [exact V|].
  assert (N2' : inject_Z (Z.of_nat n) - 1 < (a_stop c - a_start c) / a_step c).
  { destruct N2 as [-> |N2]; [change (inject_Z (Z.of_nat 1)) with 1; lra|lra]. }
  assert (M1 : (inject_Z (Z.of_nat n) - 1) * a_step c < a_stop c - a_start c).
  { rewrite <- RE. apply Qmult_lt_r; auto. }
  assert (M2 : a_stop c - a_start c - a_step c / 100 < inject_Z (Z.of_nat n) * a_step c).
  { assert (M : ((a_stop c - a_start c) / a_step c - (1#100)) * a_step c < inject_Z (Z.of_nat n) * a_step c)
      by (apply Qmult_lt_r; auto).
    assert (E : ((a_stop c - a_start c) / a_step c - (1#100)) * a_step c == a_stop c - a_start c - a_step c / 100)
      by (field; auto). lra. }
  split.
  - clear Pb V Hb Hk. assert (B : Forall (fun k => (k < n)%nat) (seq 0 n)).
    { apply Forall_forall. intros k. rewrite in_seq. lia. }
    revert B. induction Pa as [|f k fs ks Hf Hr IH]; intros B; [constructor|].
    inversion B as [|? ? Bk Br]; subst. constructor; [|auto].
    assert (K0 : 0 <= inject_Z (Z.of_nat k)) by (change 0 with (inject_Z 0); apply inj_le; lia).
    assert (K1 : inject_Z (Z.of_nat k) <= inject_Z (Z.of_nat n - 1)) by (apply inj_le; lia).
    rewrite inj_minus in K1. change (inject_Z 1) with 1 in K1.
    assert (K2 : 0 * a_step c <= inject_Z (Z.of_nat k) * a_step c) by (apply Qmult_le_r; auto).
    assert (K3 : inject_Z (Z.of_nat k) * a_step c <= (inject_Z (Z.of_nat n) - 1) * a_step c) by (apply Qmult_le_r; auto).
    rewrite Hf. lra.
  - rewrite Hk. cbn [Nat.add]. lra.
Qed.

(* the full claim fails: 0 to 10 by 3 analyses 12 *)
Theorem C27_overshoot_refuted : exists c, a_lin c = true /\ 0 < a_step c /\ a_start c < a_stop c /\
  exists fs f, ac_visits c fs /\ In f fs /\ a_stop c < f.
Proof.
  exists (mk_acp 0 10 3 true 1). split; [reflexivity|]. split; [reflexivity|]. split; [reflexivity|].
  exists [0; 3; 6; 9; 12], 12. split; [|split; [|reflexivity]].
  - exists 10%nat. intros F HF. replace F with (10 + (F - 10))%nat by lia. reflexivity.
  - cbn. tauto.
Qed.

(* "lin n": n points, evenly spaced, from start to stop *)
Theorem C27_lin_points : forall root a b (n : nat), (2 <= n)%nat -> ~ a == b ->
  exists s fs, ac_setup root LIN_PTS a b (inject_Z (Z.of_nat n)) = (s, true) /\
    ac_visits (mk_acp a b s true 1) fs /\ length fs = n /\
    forall k, (k < n)%nat ->
      nth k fs 0 == a + inject_Z (Z.of_nat k) * ((b - a) / inject_Z (Z.of_nat n - 1)).
Proof.
  intros root a b n Hn NE.
  set (p := if qleb (inject_Z (Z.of_nat n)) 2 then 2 else inject_Z (Z.of_nat n)).
  assert (Np : 2 <= inject_Z (Z.of_nat n)) by (change 2 with (inject_Z 2); apply inj_le; lia).
  assert (Ep : p == inject_Z (Z.of_nat n)) by (unfold p; qcase; lra).
  set (s := (b - a) / (p - 1)).
  assert (Sm : s * (p - 1) == b - a) by (unfold s; field; lra).
  assert (S0 : ~ s == 0) by (intro Z; rewrite Z in Sm; apply NE; lra).
  assert (Es : ac_setup root LIN_PTS a b (inject_Z (Z.of_nat n)) = (s, true)).
  { unfold ac_setup. fold p. fold s. destruct (qeqb_spec s 0); [contradiction|reflexivity]. }
  set (c := mk_acp a b s true 1).
  assert (RE : (a_stop c - a_start c) / a_step c == p - 1).
  { cbn [c a_stop a_start a_step]. unfold s. field. split; [lra|]. intro. apply NE. lra. }
  destruct (C27_linear c eq_refl S0) as (m & fs & V & P & N1 & N2 & N3).
  { rewrite RE. lra. }
  rewrite RE in N2, N3.
  assert (M : n = S m).
  { destruct (Nat.lt_trichotomy n (S m)) as [H|[H|H]]; auto; exfalso.
    - assert (H' : (Z.of_nat n <= Z.of_nat m)%Z) by lia. apply inj_le in H'.
      destruct N2 as [-> |N2]; [lia|]. lra.
    - assert (H' : (Z.of_nat m + 2 <= Z.of_nat n)%Z) by lia. apply inj_le in H'.
      rewrite inject_Z_plus in H'. change (inject_Z 2) with 2 in H'. lra. }
  exists s, fs. split; [exact Es|]. split; [exact V|].
  assert (Lf : length fs = n).
  { rewrite M. rewrite <- (seq_length (S m) 0). clear - P. induction P; cbn; congruence. }
  split; [exact Lf|].
  intros k Hk. assert (Q : s == (b - a) / inject_Z (Z.of_nat n - 1)).
  { unfold s. rewrite Ep, inj_minus. reflexivity. }
  rewrite <- Q. subst n. clear - P Hk. revert k Hk.
  assert (G : forall l st len, Forall2 (fun f k => f == a_start c + inject_Z (Z.of_nat k) * a_step c) l (seq st len) ->
     forall k, (k < len)%nat -> nth k l 0 == a + inject_Z (Z.of_nat (st + k)) * s).
  { induction l as [|x l IH]; intros st len F k Hk; destruct len; cbn in F; inversion F; subst; try lia.
    destruct k; cbn [nth].
    - rewrite Nat.add_0_r. assumption.
    - rewrite (IH (S st) len) by (auto; lia). now rewrite Nat.add_succ_comm. }
  intros k Hk. apply (G fs O (S m)); auto.
Qed.

(* log sweep *)
Theorem C27_log : forall c, a_lin c = false -> 1 < a_step c -> 0 < a_start c -> a_start c < a_stop c ->
  1 <= hund c -> exists n fs, ac_visits c fs /\
    Forall2 (fun f k => f == a_start c * a_step c ^ Z.of_nat k) fs (seq 0 (S n)) /\
    (1 <= n)%nat /\ (n = 1%nat \/ a_start c * a_step c ^ Z.of_nat (n - 1) <= a_stop c / hund c) /\
    a_stop c / hund c < a_start c * a_step c ^ Z.of_nat n.
Proof.
  intros c Hl S1 P0 P1 H1. destruct (ac_log_run c Hl S1 P0 P1 H1) as (n & fs & F0 & L & P & Q).
  exists n, fs. split; [exists F0; exact L|]. split; [exact P|]. exact Q.
Qed.

(* ---------- cases ---------- *)

Definition down := mk_swp 5 (-5) (-(5#2)) true 1 false false.
Example C26_case : linear (1 # 1000000) down /\ towards down /\ loop down = false /\
  visits (1 # 1000000) down [5; 5#2; 0; -(5#2); -(20#4)].
Proof.
  split; [|split; [|split]].
  - split; [reflexivity|]. split; [discriminate|]. split; [discriminate|vm_compute; discriminate].
  - vm_compute; discriminate.
  - reflexivity.
  - exists 10%nat. intros F HF. replace F with (10 + (F - 10))%nat by lia. vm_compute. reflexivity.
Qed.

Definition steep := mk_swp 1 1000 10 false (5#4) true false.
Example C26_log_case : logup steep /\ visits 0 steep [1; 10; 100; 1000; 1000#10; 1000#100; 1000#1000].
Proof.
  split.
  - repeat split; vm_compute; reflexivity || discriminate.
  - exists 10%nat. intros F HF. replace F with (10 + (F - 10))%nat by lia. vm_compute. reflexivity.
Qed.

Example C26_nested_case : Forall2 (visits 0) [sweep3 false false; mk_swp 0 1 1 true 1 false false] [[0; 1; 2; 3]; [0; 1]] /\
  product [[0; 1; 2; 3]; [0; 1]] = [[0;0];[0;1];[1;0];[1;1];[2;0];[2;1];[3;0];[3;1]].
Proof.
  split; [|reflexivity].
  constructor; [|constructor; [|constructor]];
    exists 10%nat; intros F HF; replace F with (10 + (F - 10))%nat by lia; reflexivity.
Qed.

Example C27_case : ac_visits (mk_acp 100 200 25 true 1) [100; 125; 150; 175; 200] /\
  ac_visits (mk_acp 1 1000 10 false (102#100)) [1; 10; 100; 1000].
Proof.
  split; exists 10%nat; intros F HF; replace F with (10 + (F - 10))%nat by lia; vm_compute; reflexivity.
Qed.

Print Assumptions C26_forward.
Print Assumptions C26_loop.
Print Assumptions C26_reverse_partial.
Print Assumptions C26_reaches_stop.
Print Assumptions C26_exact.
Print Assumptions C26_log.
Print Assumptions C26_nested.
Print Assumptions C26_inner_fastest.
Print Assumptions C26_reverse_refuted.
Print Assumptions C26_reverse_loop_refuted.
Print Assumptions C26_lin_points_refuted.
Print Assumptions C26_no_step.
Print Assumptions C27_linear.
Print Assumptions C27_one_point.
Print Assumptions C27_before_stop.
Print Assumptions C27_overshoot_refuted.
Print Assumptions C27_lin_points.
Print Assumptions C27_log.
