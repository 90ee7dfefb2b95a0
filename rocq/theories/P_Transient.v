(* C23, C24, C25: the transient time loop, the event queue, the limits of the devices. *)
Require Import ZArith QArith Qround Qfield Lqa List Sorted Permutation Bool Lia.
Require Import ZifyBool.
Require Import Verif.Loops Verif.Tran_Model Verif.Tran_Proofs Verif.Tran_Sweep.
Import ListNotations.
Local Open Scope Z_scope.

(* states between passes of the loop that a run can get to *)
Inductive reach (P : tpar) : tst -> Prop :=
| reach_start : forall t q conv tp reqs s,
    start_ok P t q reqs -> start P t q conv tp reqs = Some s -> reach P s
| reach_pass : forall s i s',
    reach P s -> input_ok i -> ~ stuck P s -> sweep_pass P i s = Some (Going s') -> reach P s'.

Lemma reach_inv : forall P, par_ok P -> forall s, reach P s -> inv P s.
Proof.
  intros P OK s H. induction H as [t q conv tp reqs s Hs E|s i s' H IH HI NS E].
  - destruct (start_ok_inv P OK t q conv tp reqs Hs) as (s1 & E1 & I1 & _).
    rewrite E in E1. injection E1 as ->. exact I1.
  - destruct (pass_ok P OK s i IH NS HI) as (p & E1 & R).
    rewrite E in E1. injection E1 as <-. apply (adv_inv P s s'), R.
Qed.

(* ---------- one pass ---------- *)

(* Both with and without assertions compiled in: unless the previous attempt failed to
   converge at one minimum step from the last accepted time, the pass is carried out, at a
   time later than the last accepted one; earlier than the attempt just rejected; not after
   the next output time nor after any queued event. *)
Theorem C23_step : forall P, par_ok P -> forall s i, reach P s -> ~ stuck P s -> input_ok i ->
  exists p, sweep_pass P i s = Some p /\
  match p with
  | Going s' | Thrown s' =>
      let t := tick P (time0 s') in
      (tick P (time1 s') = tick P (if accepted s then time0 s else time1 s))
      /\ tick P (if accepted s then time0 s else time1 s) < t
      /\ (accepted s = false -> t < tick P (time0 s))
      /\ t <= tick P (t_user s)
      /\ (time0 s' <= t_user s + (1#2) * dtmin P)%Q
      /\ (forall e, In e (eq_ s) -> t <= tick P e /\ (time0 s' <= e + (1#2) * dtmin P)%Q)
  | Finished n => tick P (tstop P + dtmin P) < tick P (time0 n)
  end.
Proof.
  intros P OK s i H NS HI. pose proof (ok_dtmin P OK) as D.
  destruct (pass_ok P OK s i (reach_inv P OK s H) NS HI) as (p & E & R).
  exists p. split; [exact E|].
  assert (K : forall s', advance P s s' ->
      (tick P (time1 s') = tick P (if accepted s then time0 s else time1 s))
      /\ tick P (if accepted s then time0 s else time1 s) < tick P (time0 s')
      /\ (accepted s = false -> tick P (time0 s') < tick P (time0 s))
      /\ tick P (time0 s') <= tick P (t_user s)
      /\ (time0 s' <= t_user s + (1#2) * dtmin P)%Q
      /\ (forall e, In e (eq_ s) -> tick P (time0 s') <= tick P e
                                    /\ (time0 s' <= e + (1#2) * dtmin P)%Q)).
  { intros s' A.
    assert (B : forall x, tick P (time0 s') <= tick P x -> (time0 s' <= x + (1#2) * dtmin P)%Q).
    { intros x Hx. pose proof (tick_near P D x) as (N & _). rewrite (adv_grid P s s' A).
      destruct (Z.eq_dec (tick P (time0 s')) (tick P x)) as [Eq|Ne].
      - rewrite Eq. lra.
      - pose proof (untick_lt P D (tick P (time0 s')) (tick P x) ltac:(lia)). lra. }
    split; [apply (adv_base P s s' A)|]. split; [apply (adv_later P s s' A)|].
    split; [apply (adv_retry P s s' A)|]. split; [apply (adv_user P s s' A)|].
    split; [apply B, (adv_user P s s' A)|].
    intros e He. pose proof (adv_events P s s' A) as F. rewrite Forall_forall in F.
    split; [now apply F|apply B; now apply F]. }
  destruct p as [s'|n|s']; cbv beta iota in R |- *.
  - apply K, R.
  - apply R.
  - apply K, R.
Qed.

(* No time is left between the last accepted point and the failed one: with assertions
   compiled in the program stops. *)
Theorem C23_stuck_stops : forall P, par_ok P -> forall s i, reach P s -> stuck P s ->
  dbg P = true -> sweep_pass P i s = None.
Proof.
  intros P OK s i H (S1 & S2 & S3) Hd. pose proof (ok_dtmin P OK) as D.
  pose proof (reach_inv P OK s H) as I.
  destruct (inv_rej P s I S1) as (A1 & A2 & A3 & A4 & A5 & A6).
  assert (U0 := inv_user0 P s I).
  set (t1 := tick P (time1 s)) in *. set (t0 := tick P (time0 s)) in *.
  enough (E : next P (i_over i) s = None) by (unfold sweep_pass; rewrite E; reflexivity).
  unfold next. rewrite S1. cbv zeta. fold t1 t0.
  assert (F5 : Forall (fun e => t1 < tick P e) (eq_ s)).
  { eapply Forall_impl; [|exact A5]. intros e He. cbv beta in He. lia. }
  destruct (next_fixed_ok P OK s t1 t1 ltac:(lia) U0 ltac:(lia) F5) as (cf & Ef & Gf & Qf & Lf).
  rewrite Ef. cbn [bind].
  destruct (next_amb_ok P OK s t1 t1 ltac:(lia) U0 cf Gf A4) as (ca & Ea & Ga & Aa & La).
  rewrite Ea. cbn [bind].
  assert (Haf : newtime ca <= newtime cf) by (destruct La as [La|La]; [rewrite La|]; lia).
  rewrite chk_true by (apply cons_ok; auto; lia).
  destruct (next_err_ok P OK s t1 t1 ltac:(lia) U0 ca (newtime cf) Ga Haf A3) as (ce & Ee & Ge & Te & Le).
  rewrite Ee. cbn [bind].
  assert (Hea : newtime ce <= newtime ca) by (destruct Le as [Le|Le]; [rewrite Le|]; lia).
  destruct (next_skip_ok P OK s t1 t1 ltac:(lia) U0 ce (newtime ca) (newtime cf) Ge Hea Haf)
    as (ck & Ek & Gk & Lk).
  rewrite Ek. cbn [bind].
  rewrite (tick_0 P D), (tick_dtmin P D). rewrite chk_true by lia.
  replace (t0 - t1 =? 0) with false by lia. replace (t0 - t1 >? 0) with true by lia.
  destruct (next_normal P s (i_over i) t1 t1 (newtime ca) (newtime cf) (t0 - t1) ck)
    as [cn|] eqn:En; [|reflexivity].
  cbn [bind].
  destruct (next_smooth P s t1 t0 t1 (newtime ca) (newtime cf) (t0 - t1) cn) as [cs|] eqn:Es;
    [|reflexivity].
  cbn [bind].
  (* whatever is proposed, it cannot be strictly between t1 and t0 = t1 + 1 *)
  unfold chk. rewrite Hd.
  assert (Tail : forall c9 : cand,
    (if negb false || (newtime c9 >? t0) then
      if false || (newtime c9 <? t0) then
        let* k := (if newtime c9 <? t0 then
                     if t1 =? t1 then Some (cause c9 + scREJECT) else None
                   else if false then if newtime c9 >? t0 then if t1 =? t0 then Some (cause c9)
                        else None else None else None) in
        if consistent P s t1 t1 (newtime ca) (newtime cf) c9
        then Some (mk_tst (untick P (newtime c9)) (untick P t1) (t_user s) (t_err s) (t_amb s)
                          (eq_ s) k (converged s) false,
                   newtime c9 <=? tick P (tstop P + dtmin P))
        else None
      else None
    else None) = None).
  { intro c9. cbn [negb orb]. destruct (newtime c9 <? t0) eqn:L; [|reflexivity].
    rewrite Z.eqb_refl. cbn [bind].
    replace (consistent P s t1 t1 (newtime ca) (newtime cf) c9) with false; [reflexivity|].
    symmetry. unfold consistent, consistent2. replace (newtime c9 >? t1) with false by lia.
    cbn [andb]. now rewrite !Bool.andb_false_r. }
  repeat match goal with
  | |- bind (if ?b then _ else _) _ = None => destruct b; cbn [bind]; try reflexivity
  end; apply Tail.
Qed.

(* ---------- whole runs ---------- *)

(* the inputs never ask to go on from a stuck state; with assertions compiled in this is no
   restriction, since then the run ends there *)
Fixpoint never_stuck (P : tpar) (l : list input) (s : tst) : Prop :=
  match l with
  | [] => True
  | i :: r => ~ stuck P s /\
      match sweep_pass P i s with Some (Going s') => never_stuck P r s' | _ => True end
  end.

Lemma dbg_never_stuck : forall P, par_ok P -> dbg P = true -> forall l s tr,
  reach P s -> Forall input_ok l -> trace P l s = Some tr -> never_stuck P l s.
Proof.
  intros P OK Hd l. induction l as [|i r IH]; intros s tr H HI E; [exact Logic.I|].
  cbn [trace never_stuck] in *.
  assert (NS : ~ stuck P s).
  { intro S. rewrite (C23_stuck_stops P OK s i H S Hd) in E. discriminate E. }
  split; [exact NS|]. pose proof (Forall_inv HI) as H1. cbv beta in H1. apply Forall_inv_tail in HI.
  destruct (sweep_pass P i s) as [[s'|n|s']|] eqn:Ep; auto.
  cbn [bind] in E. destruct (trace P r s') as [t|] eqn:Et; [|discriminate E].
  apply (IH s' t); auto. now apply reach_pass with s i.
Qed.

(* No failed assertion and no undefined behaviour in any run that does not get stuck. *)
Theorem C23_runs : forall P, par_ok P -> forall l s,
  reach P s -> Forall input_ok l -> never_stuck P l s -> exists tr, trace P l s = Some tr.
Proof.
  intros P OK l. induction l as [|i r IH]; intros s H HI NS; [now exists []|].
  cbn [trace never_stuck] in *. destruct NS as (NS & NR).
  pose proof (Forall_inv HI) as H1. cbv beta in H1. apply Forall_inv_tail in HI.
  destruct (pass_ok P OK s i (reach_inv P OK s H) NS H1) as (p & E & R). rewrite E in *.
  cbn [bind]. destruct p as [s'|n|s'].
  - destruct (IH s') as (t & Et); auto; [now apply reach_pass with s i|].
    rewrite Et. eexists. reflexivity.
  - eexists. reflexivity.
  - eexists. reflexivity.
Qed.

(* [ordered last prev tr]: every attempt is later than the last accepted time, and earlier than
   the attempt before it if that was rejected *)
Fixpoint ordered (last : Z) (prev : option Z) (tr : list (Z * bool)) : Prop :=
  match tr with
  | [] => True
  | (t, ok) :: r =>
      last < t /\ (forall p, prev = Some p -> t < p)
      /\ ordered (if ok then t else last) (if ok then None else Some t) r
  end.

Lemma trace_cons : forall P, par_ok P -> forall i r s tr,
  reach P s -> ~ stuck P s -> input_ok i -> trace P (i :: r) s = Some tr ->
  (exists s' t, sweep_pass P i s = Some (Going s') /\ advance P s s' /\ reach P s'
     /\ trace P r s' = Some t /\ tr = (tick P (time0 s'), accepted s') :: t)
  \/ tr = []
  \/ (exists s', advance P s s' /\ accepted s' = false /\ tr = [(tick P (time0 s'), false)]).
Proof.
  intros P OK i r s tr H NS HI E. cbn [trace] in E.
  destruct (pass_ok P OK s i (reach_inv P OK s H) NS HI) as (p & Ep & R). rewrite Ep in E.
  cbn [bind] in E. destruct p as [s'|n|s'].
  - left. destruct (trace P r s') as [t|] eqn:Et; [|discriminate E]. injection E as E. subst tr.
    exists s', t. split; [exact Ep|]. split; [apply R|]. split; [now apply reach_pass with s i|].
    split; [exact Et|reflexivity].
  - right; left. now injection E as E.
  - right; right. injection E as E. destruct R as (R1 & R2 & _). exists s'.
    split; [exact R1|]. split; [exact R2|]. subst tr. now rewrite R2.
Qed.

Theorem C23_times_ordered : forall P, par_ok P -> forall l s tr,
  reach P s -> Forall input_ok l -> never_stuck P l s -> trace P l s = Some tr ->
  ordered (tick P (if accepted s then time0 s else time1 s))
          (if accepted s then None else Some (tick P (time0 s))) tr.
Proof.
  intros P OK l. induction l as [|i r IH]; intros s tr H HI NS E.
  - injection E as E. subst tr. exact Logic.I.
  - pose proof (Forall_inv HI) as H1. cbv beta in H1. apply Forall_inv_tail in HI.
    cbn [never_stuck] in NS. destruct NS as (NS & NR).
    assert (K : forall s', advance P s s' ->
      tick P (if accepted s then time0 s else time1 s) < tick P (time0 s')
      /\ (forall p, (if accepted s then None else Some (tick P (time0 s))) = Some p ->
                    tick P (time0 s') < p)).
    { intros s' A. split; [apply (adv_later P s s' A)|]. intros p Hp.
      destruct (accepted s) eqn:Acc; [discriminate Hp|]. injection Hp as <-.
      now apply (adv_retry P s s' A). }
    destruct (trace_cons P OK i r s tr H NS H1 E)
      as [(s' & t & Ep & A & R' & Et & ->)|[->|(s' & A & Ac & ->)]].
    + rewrite Ep in NR. specialize (IH s' t R' HI NR Et). destruct (K s' A) as (K1 & K2).
      cbn [ordered]. split; [exact K1|]. split; [exact K2|].
      pose proof (adv_base P s s' A) as B. unfold base in B. rewrite <- B.
      destruct (accepted s'); exact IH.
    + exact Logic.I.
    + destruct (K s' A) as (K1 & K2). cbn [ordered]. now repeat split.
Qed.

(* accepted times strictly increase *)
Theorem C23_accepted_increase : forall P, par_ok P -> forall l s tr,
  reach P s -> Forall input_ok l -> never_stuck P l s -> trace P l s = Some tr ->
  StronglySorted Z.lt (map fst (filter snd tr)).
Proof.
  intros P OK l s tr H HI NS E. pose proof (C23_times_ordered P OK l s tr H HI NS E) as O.
  clear - O. revert O.
  generalize (tick P (if accepted s then time0 s else time1 s)) as last.
  generalize (if accepted s then None else Some (tick P (time0 s))) as prev.
  assert (G : forall tr prev last, ordered last prev tr ->
    StronglySorted Z.lt (map fst (filter snd tr)) /\ Forall (Z.lt last) (map fst (filter snd tr))).
  { clear. induction tr as [|[t ok] r IH]; intros prev last O; cbn; [split; constructor|].
    destruct O as (O1 & O2 & O3). destruct ok; cbn.
    - destruct (IH _ _ O3) as (A & B). split; [now constructor|]. constructor; [assumption|].
      eapply Forall_impl; [|exact B]. intros; lia.
    - apply (IH _ _ O3). }
  intros prev last O. apply (G tr prev last O).
Qed.

(* a run of rejections is bounded by the number of minimum steps in the first rejected one *)
Theorem C23_rejections_bounded : forall P, par_ok P -> forall l s tr,
  reach P s -> Forall input_ok l -> never_stuck P l s -> trace P l s = Some tr ->
  accepted s = false -> Forall (fun x => snd x = false) tr ->
  Z.of_nat (length tr) < tick P (time0 s) - tick P (time1 s).
Proof.
  intros P OK l s tr H HI NS E Acc F.
  pose proof (C23_times_ordered P OK l s tr H HI NS E) as O. rewrite Acc in O.
  destruct (inv_rej P s (reach_inv P OK s H) Acc) as (L & _).
  revert L O F. generalize (tick P (time1 s)) as last. generalize (tick P (time0 s)) as p.
  clear. induction tr as [|[t ok] r IH]; intros p last L O F; cbn [length]; [lia|].
  destruct O as (O1 & O2 & O3). pose proof (Forall_inv F) as F1. cbn in F1. subst ok.
  specialize (O2 p eq_refl). specialize (IH t last O1 O3 (Forall_inv_tail F)). lia.
Qed.

Lemma accepted_in_base : forall P, par_ok P -> forall l s tr k,
  reach P s -> Forall input_ok l -> never_stuck P l s -> trace P l s = Some tr ->
  In (k, true) tr -> base P s < k.
Proof.
  intros P OK l s tr k H HI NS E Hin.
  pose proof (C23_times_ordered P OK l s tr H HI NS E) as O. fold (base P s) in O.
  revert O Hin. generalize (base P s) as last.
  generalize (if accepted s then None else Some (tick P (time0 s))) as prev.
  clear. induction tr as [|[t ok] r IH]; intros prev last O Hin; [destruct Hin|].
  destruct O as (O1 & O2 & O3). destruct Hin as [Hin|Hin].
  - injection Hin as -> ->. exact O1.
  - destruct ok; [specialize (IH _ _ O3 Hin); lia|exact (IH _ _ O3 Hin)].
Qed.

(* no queued event is passed over: once the accepted time has got as far as the event, the
   event's own time was among the accepted times *)
Theorem C23_events_hit : forall P, par_ok P -> forall l s tr e k,
  reach P s -> Forall input_ok l -> never_stuck P l s -> trace P l s = Some tr ->
  In e (eq_ s) -> In (k, true) tr -> tick P e <= k -> In (tick P e, true) tr.
Proof.
  intros P OK l. induction l as [|i r IH]; intros s tr e k H HI NS E He Hk Le.
  - injection E as E. subst tr. destruct Hk.
  - pose proof (Forall_inv HI) as H1. cbv beta in H1. apply Forall_inv_tail in HI.
    cbn [never_stuck] in NS. destruct NS as (NS & NR).
    destruct (trace_cons P OK i r s tr H NS H1 E)
      as [(s' & t & Ep & A & R' & Et & ->)|[->|(s' & A & Ac & ->)]].
    + rewrite Ep in NR.
      destruct (adv_keep P s s' A e He) as [K|(K1 & K2)].
      * destruct Hk as [Hk|Hk].
        -- injection Hk as Hk1 Hk2. left.
           pose proof (adv_inv P s s' A) as I'.
           destruct (inv_acc P s' I' Hk2) as (_ & _ & _ & _ & F & _).
           rewrite Forall_forall in F. specialize (F e K). cbv beta in F. lia.
        -- right. now apply (IH s' t e k).
      * left. now rewrite K1, K2.
    + destruct Hk.
    + destruct Hk as [Hk|[]]. injection Hk as _ Hk. discriminate Hk.
Qed.

(* nor is any of the user's output times, from the next one on *)
Theorem C23_outputs_hit : forall P, par_ok P -> forall l s tr (n : nat) k,
  reach P s -> Forall input_ok l -> never_stuck P l s -> trace P l s = Some tr ->
  let u := tick P (t_user s + inject_Z (Z.of_nat n) * tstrobe P) in
  In (k, true) tr -> u <= k -> In (u, true) tr.
Proof.
  intros P OK l. pose proof (ok_dtmin P OK) as D. pose proof (ok_strobe P OK) as Sb.
  induction l as [|i r IH]; intros s tr n k H HI NS E u Hk Le.
  - injection E as E. subst tr. destruct Hk.
  - pose proof (Forall_inv HI) as H1. cbv beta in H1. apply Forall_inv_tail in HI.
    cbn [never_stuck] in NS. destruct NS as (NS & NR).
    destruct (trace_cons P OK i r s tr H NS H1 E)
      as [(s' & t & Ep & A & R' & Et & ->)|[->|(s' & A & Ac & ->)]].
    2:{ destruct Hk. }
    2:{ destruct Hk as [Hk|[]]. injection Hk as _ Hk. discriminate Hk. }
    rewrite Ep in NR. pose proof (adv_strobe P s s' A) as St.
    pose proof (adv_inv P s s' A) as I'.
    assert (Mono : tick P (t_user s) <= u).
    { unfold u. apply (tick_mono P D).
      assert (0 <= inject_Z (Z.of_nat n))%Q by (change 0%Q with (inject_Z 0); rewrite <- Zle_Qle; lia).
      assert (0 <= inject_Z (Z.of_nat n) * tstrobe P)%Q by (apply Qmult_le_0_compat; lra). lra. }
    destruct (accepted s' && (tick P (time0 s') =? tick P (t_user s))) eqn:Hit.
    + apply andb_prop in Hit. destruct Hit as (Ac & Hit).
      destruct n as [|m].
      * left. rewrite Ac. f_equal. unfold u.
        transitivity (tick P (t_user s)); [lia|]. apply tick_ext. cbn. ring.
      * assert (Eu : u = tick P (t_user s' + inject_Z (Z.of_nat m) * tstrobe P)).
        { unfold u. apply tick_ext. rewrite St. rewrite Nat2Z.inj_succ. unfold Z.succ.
          rewrite inject_Z_plus. change (inject_Z 1) with 1%Q. ring. }
        destruct Hk as [Hk|Hk].
        -- injection Hk as Hk1 Hk2.
           destruct (inv_acc P s' I' Ac) as (_ & Lt & _).
           exfalso.
           assert (tick P (t_user s') <= u).
           { rewrite Eu. apply (tick_mono P D).
             assert (0 <= inject_Z (Z.of_nat m))%Q by (change 0%Q with (inject_Z 0); rewrite <- Zle_Qle; lia).
             assert (0 <= inject_Z (Z.of_nat m) * tstrobe P)%Q by (apply Qmult_le_0_compat; lra). lra. }
           lia.
        -- right. rewrite Eu. apply (IH s' t m k); auto. rewrite <- Eu. exact Le.
    + assert (Eu : u = tick P (t_user s' + inject_Z (Z.of_nat n) * tstrobe P)) by (unfold u; now rewrite St).
      destruct Hk as [Hk|Hk].
      * injection Hk as Hk1 Hk2. exfalso. rewrite Hk2 in Hit. cbn [andb] in Hit.
        pose proof (adv_user P s s' A). lia.
      * right. rewrite Eu. apply (IH s' t n k); auto. rewrite <- Eu. exact Le.
Qed.

(* ---------- a concrete run ---------- *)

Definition big : Q := inject_Z (10 ^ 99).
(* minimum step 1, output every 20, stop at 100, default shrink 2 *)
Definition P1 (d : bool) : tpar :=
  mk_tpar 1 20 0 100 20 2 big big false d.
Definition nolimit : tpair := mk_tpair big big.
Definition pass_yes : input := mk_input false true nolimit [].
Definition pass_no : input := mk_input false false nolimit [].

Lemma P1_ok : forall d, par_ok (P1 d).
Proof. intro d. constructor; cbn; unfold big; try lra; now vm_compute. Qed.

Lemma start_nil_ok : forall d, start_ok (P1 d) 0 [] [].
Proof.
  intro d. constructor; try constructor; try (now vm_compute); lra.
Qed.
Lemma start_P1_ok : forall d, start_ok (P1 d) 0 [13#1] [7#2]%Q.
Proof.
  intro d. constructor.
  - now vm_compute.
  - lra.
  - left. reflexivity.
  - constructor; [now vm_compute|constructor].
  - constructor; [now vm_compute|constructor].
Qed.

(* an event asked for at 3.5 (put at 4), one at 13; the second attempt does not converge, a
   later one is refused by the error estimate *)
Definition inputs1 : list input :=
  [pass_yes; pass_no; pass_yes; pass_yes; mk_input false true (mk_tpair (7#1) big) [];
   pass_yes; pass_yes; pass_yes; pass_yes].
Example C23_case :
  let P := P1 true in
  exists s, start P 0 [13#1]%Q true nolimit [7#2]%Q = Some s /\ reach P s /\ ~ stuck P s
  /\ Forall input_ok inputs1 /\ never_stuck P inputs1 s
  /\ eq_ s = [4#1; 13#1]%Q
  /\ trace P inputs1 s
     = Some [(1, true); (4, false); (3, true); (4, true); (13, false); (7, true); (13, true);
             (20, true); (40, true)].
Proof.
  cbv zeta. eexists. split; [vm_compute; reflexivity|].
  match goal with |- reach _ ?x /\ _ => set (s := x) end.
  assert (R : reach (P1 true) s)
    by (apply reach_start with 0%Q [13#1]%Q true nolimit [7#2]%Q; [apply start_P1_ok|vm_compute; reflexivity]).
  assert (F : Forall input_ok inputs1) by (repeat constructor).
  assert (T : trace (P1 true) inputs1 s
     = Some [(1, true); (4, false); (3, true); (4, true); (13, false); (7, true); (13, true);
             (20, true); (40, true)]) by (vm_compute; reflexivity).
  split; [exact R|]. split; [intros (A & _); vm_compute in A; discriminate A|]. split; [exact F|].
  split; [|split; [reflexivity|exact T]].
  exact (dbg_never_stuck (P1 true) (P1_ok true) eq_refl inputs1 s _ R F T).
Qed.

(* a state in which the run is stuck: the first attempt, one minimum step from the start, does
   not converge *)
Example C23_stuck_case :
  exists s s', start (P1 true) 0 [] true nolimit [] = Some s
  /\ sweep_pass (P1 true) pass_no s = Some (Going s') /\ reach (P1 true) s' /\ stuck (P1 true) s'.
Proof.
  eexists _, _. split; [vm_compute; reflexivity|]. split; [vm_compute; reflexivity|].
  split.
  - eapply reach_pass with (i := pass_no).
    + apply reach_start with 0%Q (@nil Q) true nolimit (@nil Q); [apply start_nil_ok|vm_compute; reflexivity].
    + constructor.
    + intros (A & _). vm_compute in A. discriminate A.
    + vm_compute. reflexivity.
  - repeat split; vm_compute; reflexivity.
Qed.

(* ---------- what does not hold ---------- *)

(* Built without assertions (the default flags), a circuit that stops converging one minimum
   step from the last accepted time makes the program try the two following ticks alternately
   for ever: no error, no progress. *)
Theorem C23_release_loops_refuted :
  exists P s, par_ok P /\ dbg P = false /\ reach P s /\
  forall n : nat, exists tr,
    trace P (repeat pass_no n) s = Some tr /\ length tr = n
    /\ Forall (fun x => snd x = false /\ (fst x = 1 \/ fst x = 2)) tr.
Proof.
  exists (P1 false).
  destruct (start (P1 false) 0 [] true nolimit []) as [s|] eqn:Es; [|vm_compute in Es; discriminate Es].
  exists s. split; [apply P1_ok|]. split; [reflexivity|].
  split; [apply reach_start with 0%Q (@nil Q) true nolimit (@nil Q); [apply start_nil_ok|exact Es]|].
  vm_compute in Es. injection Es as Es.
  destruct (sweep_pass (P1 false) pass_no s) as [[a|a|a]|] eqn:E1;
    try (subst s; vm_compute in E1; discriminate E1).
  destruct (sweep_pass (P1 false) pass_no a) as [[b|b|b]|] eqn:E2;
    try (subst s; vm_compute in E1; injection E1 as <-; vm_compute in E2; discriminate E2).
  destruct (sweep_pass (P1 false) pass_no b) as [[c|c|c]|] eqn:E3;
    try (subst s; vm_compute in E1; injection E1 as <-; vm_compute in E2; injection E2 as <-;
         vm_compute in E3; discriminate E3).
  assert (F : tick (P1 false) (time0 a) = 1 /\ accepted a = false
              /\ tick (P1 false) (time0 b) = 2 /\ accepted b = false
              /\ tick (P1 false) (time0 c) = 1 /\ accepted c = false
              /\ sweep_pass (P1 false) pass_no c = Some (Going b)).
  { subst s. vm_compute in E1. injection E1 as <-. vm_compute in E2. injection E2 as <-.
    vm_compute in E3. injection E3 as <-. repeat split; vm_compute; reflexivity. }
  destruct F as (A1 & A2 & B1 & B2 & C1 & C2 & E4).
  assert (G : forall n : nat,
    (exists tr, trace (P1 false) (repeat pass_no n) b = Some tr /\ length tr = n
     /\ Forall (fun x => snd x = false /\ (fst x = 1 \/ fst x = 2)) tr)
    /\ (exists tr, trace (P1 false) (repeat pass_no n) c = Some tr /\ length tr = n
     /\ Forall (fun x => snd x = false /\ (fst x = 1 \/ fst x = 2)) tr)).
  { intro n. induction n as [|n (IB & IC)].
    - split; exists []; repeat split; constructor.
    - split.
      + destruct IC as (tr & T1 & T2 & T3). cbn [repeat trace]. rewrite E3. cbn [bind].
        rewrite T1. cbn [bind]. eexists. split; [reflexivity|]. cbn [length].
        split; [now rewrite T2|]. constructor; [|exact T3]. cbn. rewrite C1, C2. auto.
      + destruct IB as (tr & T1 & T2 & T3). cbn [repeat trace]. rewrite E4. cbn [bind].
        rewrite T1. cbn [bind]. eexists. split; [reflexivity|]. cbn [length].
        split; [now rewrite T2|]. constructor; [|exact T3]. cbn. rewrite B1, B2. auto. }
  intro n. destruct n as [|n]; [exists []; repeat split; constructor|].
  cbn [repeat trace]. rewrite E1. cbn [bind].
  destruct n as [|n].
  - cbn. eexists. split; [reflexivity|]. split; [reflexivity|].
    constructor; [|constructor]. cbn. rewrite A1, A2. auto.
  - cbn [repeat trace]. rewrite E2. cbn [bind].
    destruct (G n) as ((tr & T1 & T2 & T3) & _). rewrite T1. cbn [bind].
    eexists. split; [reflexivity|]. cbn [length]. split; [now rewrite T2|].
    constructor; [cbn; rewrite A1, A2; auto|]. constructor; [cbn; rewrite B1, B2; auto|exact T3].
Qed.

(* A minimum step more than twice the maximum step: the second pass divides by zero. *)
Theorem C23_dtmax_below_dtmin_refuted :
  exists P s, (0 < dtmin P)%Q /\ (0 < dtmax P)%Q /\ dbg P = false
  /\ start P 0 [] true nolimit [] = Some s
  /\ (exists s', sweep_pass P pass_yes s = Some (Going s') /\ sweep_pass P pass_yes s' = None).
Proof.
  exists (mk_tpar 1 (1#4) 0 100 20 2 big big false false).
  eexists. split; [vm_compute; reflexivity|]. split; [vm_compute; reflexivity|].
  split; [reflexivity|]. split; [vm_compute; reflexivity|].
  eexists. split; [vm_compute; reflexivity|]. vm_compute. reflexivity.
Qed.

(* ---------- C24: the event queue ---------- *)

(* a history of the queue: requests and removals *)
Inductive eq_op := Push (x : Q) | Pop.
(* the queue after a history, and what was handed out, in order *)
Fixpoint eq_run (l : list eq_op) (q : list Q) : list Q * list Q :=
  match l with
  | [] => (q, [])
  | Push x :: r => eq_run r (eq_push x q)
  | Pop :: r => match q with
                | [] => eq_run r []
                | e :: q' => let (f, o) := eq_run r q' in (f, e :: o)
                end
  end.
Fixpoint pushed (l : list eq_op) : list Q :=
  match l with [] => [] | Push x :: r => x :: pushed r | Pop :: r => pushed r end.

Lemma eq_push_perm : forall x l, Permutation (eq_push x l) (x :: l).
Proof.
  intros x l. induction l as [|y r IH]; cbn; [reflexivity|].
  destruct (qle x y); [reflexivity|]. rewrite IH. apply perm_swap.
Qed.

(* nothing is lost and nothing is duplicated *)
Theorem C24_none_lost : forall l q,
  let (f, o) := eq_run l q in Permutation (o ++ f) (pushed l ++ q).
Proof.
  intro l. induction l as [|[x|] r IH]; intro q; cbn [eq_run pushed].
  - reflexivity.
  - specialize (IH (eq_push x q)). destruct (eq_run r (eq_push x q)) as [f o].
    rewrite IH, eq_push_perm. cbn. now rewrite Permutation_middle.
  - destruct q as [|e q']; [apply IH|]. specialize (IH q'). destruct (eq_run r q') as [f o].
    cbn. rewrite IH. now rewrite Permutation_middle.
Qed.

(* each removal hands out the earliest of what is queued then *)
Theorem C24_earliest_first : forall l q f o, StronglySorted Qle q -> eq_run l q = (f, o) ->
  StronglySorted Qle f
  /\ (forall e r, l = Pop :: r -> hd_error q = Some e ->
        hd_error o = Some e /\ forall x, In x q -> (e <= x)%Q).
Proof.
  intros l q f o Hs E. split.
  - revert q f o Hs E. induction l as [|[x|] r IH]; intros q f o Hs E; cbn [eq_run] in E.
    + injection E as E _. now rewrite <- E.
    + apply (IH (eq_push x q) f o); [now apply eq_push_sorted|exact E].
    + destruct q as [|e q']; [now apply (IH [] f o)|].
      destruct (eq_run r q') as [f' o'] eqn:E'. injection E as E _. rewrite <- E.
      apply (IH q' f' o'); [|exact E']. now apply StronglySorted_inv in Hs.
  - intros e r El Hq. subst l. destruct q as [|e' q']; [discriminate Hq|].
    injection Hq as ->. cbn [eq_run] in E. destruct (eq_run r q') as [f' o'].
    injection E as _ E. subst o. split; [reflexivity|]. intros x [Hx|Hx]; [rewrite Hx; lra|].
    apply StronglySorted_inv in Hs. destruct Hs as (_ & Hs). rewrite Forall_forall in Hs.
    now apply Hs.
Qed.

(* without further requests the times come out in nondecreasing order, all of them *)
Theorem C24_drained_in_order : forall xs,
  exists o, eq_run (map Push xs ++ repeat Pop (length xs)) [] = ([], o)
  /\ StronglySorted Qle o /\ Permutation o xs.
Proof.
  intro xs.
  assert (D : forall q, StronglySorted Qle q -> eq_run (repeat Pop (length q)) q = ([], q)).
  { induction q as [|e q IH]; intro Hs; [reflexivity|]. cbn [length repeat eq_run].
    apply StronglySorted_inv in Hs. now rewrite IH. }
  assert (L : forall xs k q, eq_run (map Push xs ++ k) q
                             = eq_run k (fold_left (fun l x => eq_push x l) xs q)).
  { induction xs0 as [|x r IH]; intros k q; [reflexivity|]. cbn [map app eq_run fold_left]. apply IH. }
  rewrite L. set (q := fold_left (fun l x => eq_push x l) xs []).
  assert (Pm : Permutation q xs).
  { unfold q. rewrite <- (app_nil_r xs) at 2. generalize (@nil Q) as z.
    clear. induction xs as [|x r IH]; intro z; [reflexivity|]. cbn [fold_left].
    rewrite IH, eq_push_perm. cbn. now rewrite Permutation_middle. }
  assert (Hs : StronglySorted Qle q) by (apply push_all_sorted; constructor).
  exists q. rewrite <- (Permutation_length Pm). split; [now apply D|]. now split.
Qed.

(* where a request is put: on the grid of minimum steps, less than half a minimum step before
   and at most one after; never before the request when that is within one minimum step of
   now; and never before now *)
Theorem C24_not_early : forall dtm now t, (0 < dtm)%Q -> (0 <= t)%Q ->
  let e := event_time dtm now t in
  (exists k, e == inject_Z k * dtm)%Q
  /\ (t - (1#2) * dtm < e)%Q /\ (e < t + dtm)%Q
  /\ (t <= now + dtm -> t <= e)%Q
  /\ (now + dtm < t -> now + (1#2) * dtm < e)%Q.
Proof.
  intros dtm now t D Ht e. unfold e, event_time.
  destruct (qle dtm 0) eqn:E0; [apply qle_t in E0; lra|].
  assert (Et : (t == (t / dtm) * dtm)%Q) by (field; lra).
  set (x := (t / dtm)%Q) in *.
  assert (X0 : (0 <= x)%Q) by (apply Qle_shift_div_l; [assumption|lra]).
  destruct (qle t (now + dtm)) eqn:E1.
  - apply qle_t in E1. pose proof (Qle_ceiling x) as C1. pose proof (Qceiling_lt x) as C2.
    unfold Z.sub in C2. rewrite inject_Z_plus in C2. change (inject_Z (-(1))) with (-1)%Q in C2.
    set (c := inject_Z (Qceiling x)) in *.
    assert (M1 : (x * dtm <= c * dtm)%Q) by (apply Qmult_le_compat_r; lra).
    assert (M2 : (c * dtm < (x + 1) * dtm)%Q) by (apply Qmult_lt_compat_r; lra).
    split; [exists (Qceiling x); fold c; lra|]. repeat split; intros; lra.
  - apply qle_f in E1.
    assert (N : (x - (1#2) < inject_Z (qround x) <= x + (1#2))%Q).
    { unfold qround. rewrite (proj2 (qle_t 0 x) X0).
      pose proof (Qfloor_le (x + (1#2))) as L. pose proof (Qlt_floor (x + (1#2))) as U.
      rewrite inject_Z_plus in U. change (inject_Z 1) with 1%Q in U. lra. }
    set (c := inject_Z (qround x)) in *.
    assert (M1 : ((x - (1#2)) * dtm < c * dtm)%Q) by (apply Qmult_lt_compat_r; lra).
    assert (M2 : (c * dtm <= (x + (1#2)) * dtm)%Q) by (apply Qmult_le_compat_r; lra).
    split; [exists (qround x); fold c; lra|]. repeat split; intros; lra.
Qed.

Example C24_case :
  (event_time 1 (3#1) (7#2) == 4)%Q /\ (event_time 1 (3#1) (53#10) == 5)%Q
  /\ eq_run [Push (5#1); Push (2#1); Pop; Push (1#1); Push (9#1); Pop; Pop]%Q []
     = ([9#1], [2#1; 1#1; 5#1])%Q.
Proof. vm_compute. repeat split. Qed.

(* ---------- C25: the limits of the devices ---------- *)

(* the devices of a circuit, through all levels of subcircuits *)
Fixpoint devices (c : ckt) : list tpair :=
  match c with
  | Dev p => [p]
  | Sub l => flat_map devices l
  end.

(* m is the smallest of the values, or [never] when none is below it *)
Definition smallest (never m : Q) (vs : list Q) : Prop :=
  (m <= never)%Q /\ (forall v, In v vs -> (m <= v)%Q) /\ (m = never \/ In m vs).

Lemma tp_min_spec : forall p q,
  (tp_err (tp_min p q) = if qlt (tp_err q) (tp_err p) then tp_err q else tp_err p)
  /\ (tp_ev (tp_min p q) = if qlt (tp_ev q) (tp_ev p) then tp_ev q else tp_ev p).
Proof.
  intros p q. unfold tp_min, tp_min_ev, tp_min_err.
  destruct (qlt (tp_err q) (tp_err p)); cbn [tp_err tp_ev];
    destruct (qlt (tp_ev q) (tp_ev p)); now split.
Qed.

Lemma smallest_min : forall never a b va vb,
  smallest never a va -> (smallest never b vb \/ (vb = [b])) ->
  smallest never (if qlt b a then b else a) (va ++ vb).
Proof.
  intros never a b va vb (A1 & A2 & A3) B.
  destruct (qlt b a) eqn:L.
  - apply qlt_t in L. split; [lra|]. split.
    + intros v Hv. apply in_app_or in Hv. destruct Hv as [Hv|Hv]; [specialize (A2 v Hv); lra|].
      destruct B as [(B1 & B2 & B3)|B]; [now apply B2|]. subst vb. destruct Hv as [Hv|[]]. rewrite Hv. lra.
    + destruct B as [(B1 & B2 & [B3|B3])|B].
      * now left.
      * right. apply in_or_app. now right.
      * right. apply in_or_app. right. subst vb. now left.
  - apply qlt_f in L. split; [assumption|]. split.
    + intros v Hv. apply in_app_or in Hv. destruct Hv as [Hv|Hv]; [now apply A2|].
      destruct B as [(B1 & B2 & B3)|B]; [specialize (B2 v Hv); lra|]. subst vb. destruct Hv as [Hv|[]].
      now rewrite <- Hv.
    + destruct A3 as [A3|A3]; [now left|]. right. apply in_or_app. now left.
Qed.

Lemma ckt_rect' : forall (Q : ckt -> Prop), (forall p, Q (Dev p)) ->
  (forall l, Forall Q l -> Q (Sub l)) -> forall c, Q c.
Proof.
  intros Q HD HS. fix F 1. intros [p|l]; [apply HD|]. apply HS.
  induction l as [|c r IH]; constructor; [apply F|exact IH].
Qed.

Theorem C25_smallest_limits : forall never l,
  let r := list_review never l in
  smallest never (tp_err r) (map tp_err (flat_map devices l))
  /\ smallest never (tp_ev r) (map tp_ev (flat_map devices l)).
Proof.
  intros never l. unfold list_review.
  change (flat_map devices l) with (devices (Sub l)).
  enough (G : forall c, match c with Dev _ => True | Sub _ =>
      smallest never (tp_err (card_review never c)) (map tp_err (devices c))
      /\ smallest never (tp_ev (card_review never c)) (map tp_ev (devices c)) end)
    by exact (G (Sub l)).
  clear l. apply ckt_rect'; [exact (fun _ => Logic.I)|].
  intros l H. cbn [card_review devices].
  assert (K : forall t v1 v2, smallest never (tp_err t) v1 -> smallest never (tp_ev t) v2 ->
    let r := fold_left (fun t d => tp_min t (card_review never d)) l t in
    smallest never (tp_err r) (v1 ++ map tp_err (flat_map devices l))
    /\ smallest never (tp_ev r) (v2 ++ map tp_ev (flat_map devices l))).
  { induction H as [|c r Hc Hr IH]; intros t v1 v2 H1 H2.
    - cbn. now rewrite !app_nil_r.
    - cbn [fold_left flat_map]. rewrite !map_app, !app_assoc.
      destruct (tp_min_spec t (card_review never c)) as (E1 & E2).
      apply IH.
      + rewrite E1. apply smallest_min; [assumption|]. destruct c as [p|l']; [now right|left; apply Hc].
      + rewrite E2. apply smallest_min; [assumption|]. destruct c as [p|l']; [now right|left; apply Hc]. }
  apply (K (mk_tpair never never) [] []); (split; [cbn; lra|]; split; [intros v []|now left]).
Qed.

Theorem C25_never_when_none : forall never l,
  flat_map devices l = [] -> list_review never l = mk_tpair never never.
Proof.
  intros never l E. destruct (C25_smallest_limits never l) as ((_ & _ & A) & (_ & _ & B)).
  rewrite E in A, B. destruct A as [A|[]], B as [B|[]].
  destruct (list_review never l) as [a b]. cbn in A, B. congruence.
Qed.

Example C25_case :
  list_review (100#1) [Dev (mk_tpair (9#1) (100#1)); Sub [Dev (mk_tpair (100#1) (3#1)); Sub [Dev (mk_tpair (4#1) (8#1))]];
                       Dev (mk_tpair (5#1) (7#1))]
  = mk_tpair (4#1) (3#1).
Proof. vm_compute. reflexivity. Qed.

Print Assumptions C23_step.
Print Assumptions C23_stuck_stops.
Print Assumptions C23_runs.
Print Assumptions C23_times_ordered.
Print Assumptions C23_accepted_increase.
Print Assumptions C23_rejections_bounded.
Print Assumptions C23_events_hit.
Print Assumptions C23_outputs_hit.
Print Assumptions C23_release_loops_refuted.
Print Assumptions C23_dtmax_below_dtmin_refuted.
Print Assumptions C24_none_lost.
Print Assumptions C24_earliest_first.
Print Assumptions C24_drained_in_order.
Print Assumptions C24_not_early.
Print Assumptions C25_smallest_limits.
Print Assumptions C25_never_when_none.
