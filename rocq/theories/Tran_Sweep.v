(* One pass of the loop of TRANSIENT::sweep, and whole runs. *)
Require Import ZArith QArith Qround Qfield Lqa List Sorted Bool Lia.
Require Import ZifyBool.
Require Import Verif.Loops Verif.Tran_Model Verif.Tran_Proofs.
Import ListNotations.
Local Open Scope Z_scope.

(* the last accepted time, from which the next step starts *)
Definition base (P : tpar) (s : tst) : Z :=
  tick P (if accepted s then time0 s else time1 s).

(* devices ask for events in the future *)
Definition input_ok (i : input) : Prop := Forall (fun d => (0 < d)%Q) (i_reqs i).

(* from s to s' in one pass *)
Record advance (P : tpar) (s s' : tst) : Prop := {
  adv_grid : time0 s' = untick P (tick P (time0 s'));
  adv_base : tick P (time1 s') = base P s;
  adv_later : base P s < tick P (time0 s');
  adv_retry : accepted s = false -> tick P (time0 s') < tick P (time0 s);
  adv_user : tick P (time0 s') <= tick P (t_user s);
  adv_events : Forall (fun e => tick P (time0 s') <= tick P e) (eq_ s);
  adv_strobe : t_user s' = (if accepted s' && (tick P (time0 s') =? tick P (t_user s))
                            then t_user s + tstrobe P else t_user s)%Q;
  adv_keep : forall e, In e (eq_ s) ->
     In e (eq_ s') \/ (accepted s' = true /\ tick P e = tick P (time0 s'));
  adv_inv : inv P s' }.

Lemma base_eq : forall P s,
  base P s = if accepted s then tick P (time0 s) else tick P (time1 s).
Proof. intros P s. unfold base. now destruct (accepted s). Qed.

Lemma inv_dest : forall P s, inv P s -> StronglySorted Qle (eq_ s) /\ (0 <= t_user s)%Q.
Proof. intros P s I. split; [apply (inv_sorted P s I)|apply (inv_user0 P s I)]. Qed.

Lemma pass_ok : forall P, par_ok P -> forall s i, inv P s -> ~ stuck P s -> input_ok i ->
  exists p, sweep_pass P i s = Some p /\
  match p with
  | Going s' => advance P s s' /\ tick P (time0 s') <= tick P (tstop P + dtmin P)
                /\ (accepted s' = true -> converged s' = true)
  | Thrown s' => advance P s s' /\ accepted s' = false /\ quitfail P = true
  | Finished n => base P s < tick P (time0 n) /\ tick P (tstop P + dtmin P) < tick P (time0 n)
  end.
Proof.
  intros P OK s i I NS HI. pose proof (ok_dtmin P OK) as D.
  destruct (next_ok P OK s (i_over i) I NS) as (nt & k & En & N1 & N2 & N3 & N4 & N5 & N6).
  rewrite <- base_eq in En, N1.
  unfold sweep_pass. rewrite En. cbn [bind].
  destruct (nt <=? tick P (tstop P + dtmin P)) eqn:Go; cbn [negb].
  2:{ eexists. split; [reflexivity|]. cbn [time0]. rewrite (tick_untick P D). lia. }
  cbn [time0 time1 t_user t_err t_amb eq_ control accepted].
  set (n := mk_tst (untick P nt) (untick P (base P s)) (t_user s) (t_err s) (t_amb s) (eq_ s) k
                   (i_conv i) (accepted s)).
  pose proof (tick_near P D (t_user s)) as NU.
  pose proof (inv_dest P s I) as (So & U0).
  assert (Lim : base P s < tick P (t_err s) /\ base P s < tick P (t_amb s)).
  { rewrite base_eq. destruct (accepted s) eqn:Acc.
    - destruct (inv_acc P s I Acc) as (A1 & A2 & A3 & A4 & A5 & A6). lia.
    - destruct (inv_rej P s I Acc) as (A1 & A2 & A3 & A4 & A5 & A6). lia. }
  (* the reviewed state *)
  assert (RV : exists err amb ok,
    (if i_conv i then review P (i_tp i) n else (n, false))
    = (mk_tst (untick P nt) (untick P (base P s)) (t_user s) err amb (eq_ s) k (i_conv i) (accepted s), ok)
    /\ base P s < tick P err /\ base P s < tick P amb
    /\ (ok = true -> nt < tick P err /\ nt < tick P amb /\ i_conv i = true)
    /\ (ok = false -> i_conv i = true -> tick P err < nt \/ tick P amb < nt)).
  { destruct (i_conv i) eqn:Cv.
    - pose proof (review_ok P (i_tp i) n nt (base P s) D eq_refl eq_refl ltac:(lia)) as R.
      destruct (review P (i_tp i) n) as [r ok]. destruct R as (R1 & R2 & R3 & R4 & R5).
      exists (t_err r), (t_amb r), ok. rewrite R1 at 1. cbn. repeat split; try assumption.
      + now apply R4.
      + now apply R4.
      + intros; now apply R5.
    - exists (t_err s), (t_amb s), false. split; [reflexivity|].
      repeat split; try apply Lim; intros; discriminate. }
  destruct RV as (err & amb & ok & ER & R2 & R3 & R4 & R5).
  match goal with |- context [let (_, _) := ?x in _] =>
    replace x with (mk_tst (untick P nt) (untick P (base P s)) (t_user s) err amb (eq_ s) k (i_conv i) (accepted s), ok) by (symmetry; exact ER) end.
  cbn [time0 time1 t_user t_err t_amb eq_ control accepted].
  destruct ok.
  - (* accepted *)
    destruct (R4 eq_refl) as (R6 & R7 & Cv). rewrite Cv. cbn [negb andb].
    pose proof (untick_lt P D) as UL.
    assert (LE : (untick P nt <= untick P (tick P (t_user s)))%Q).
    { destruct (Z.eq_dec nt (tick P (t_user s))) as [Eq|Ne]; [rewrite Eq; lra|].
      specialize (UL nt (tick P (t_user s)) ltac:(lia)). lra. }
    rewrite chk_true by (apply qle_t; lra).
    unfold accept. cbn [time0 time1 t_user t_err t_amb eq_ control accepted converged].
    rewrite (tick_untick P D).
    destruct (pop_used_ok P nt (eq_ s) D So N2) as (l & El & L1 & L2 & L3 & L4).
    rewrite El. cbn [bind time0 time1 t_user t_err t_amb eq_ control accepted converged].
    set (a0 := mk_tst (untick P nt) (untick P (base P s)) (t_user s) err amb (eq_ s) k true true).
    destruct (requests_ok P nt a0 D eq_refl (i_reqs i) l L1 L2 HI) as (Q1 & Q2 & Q3).
    set (q := fold_left (request P a0) (i_reqs i) l) in *.
    assert (ES : (k =? scUSER) = (nt =? tick P (t_user s))).
    { apply Bool.eq_iff_eq_true. rewrite !Z.eqb_eq. symmetry. exact N5. }
    rewrite ES.
    assert (St : exists u,
      (if nt =? tick P (t_user s)
       then chk P (qle (untick P nt - dtmin P) (t_user s) && qle (t_user s) (untick P nt + dtmin P))
              (Some (mk_tst (untick P nt) (untick P (base P s)) (t_user s + tstrobe P) err amb q k true true))
       else Some (mk_tst (untick P nt) (untick P (base P s)) (t_user s) err amb q k true true))
      = Some (mk_tst (untick P nt) (untick P (base P s)) u err amb q k true true)
      /\ (u = if nt =? tick P (t_user s) then t_user s + tstrobe P else t_user s)%Q
      /\ (0 <= u)%Q /\ nt < tick P u /\ (untick P nt < u)%Q).
    { pose proof (ok_strobe P OK) as Sb.
      destruct (nt =? tick P (t_user s)) eqn:Eu.
      - assert (Eu' : nt = tick P (t_user s)) by lia.
        assert (NU' : (untick P nt - (1 # 2) * dtmin P <= t_user s <= untick P nt + (1 # 2) * dtmin P)%Q)
          by (rewrite Eu'; exact NU).
        rewrite chk_true.
        2:{ apply andb_true_intro. split; apply qle_t; lra. }
        eexists. split; [reflexivity|]. split; [reflexivity|]. split; [lra|]. split; [|lra].
        apply Z.lt_le_trans with (tick P (t_user s + dtmin P)).
        + rewrite (tick_plus_dtmin P D) by assumption. lia.
        + apply (tick_mono P D). lra.
      - eexists. split; [reflexivity|]. split; [reflexivity|]. split; [lra|]. split; [lia|].
        specialize (UL nt (tick P (t_user s)) ltac:(lia)). lra. }
    destruct St as (u & Eu & Eu2 & U1 & U2 & U3).
    match goal with |- context [bind ?x _] =>
      replace x with (Some (mk_tst (untick P nt) (untick P (base P s)) u err amb q k true true)) by (symmetry; exact Eu) end.
    cbn [bind time0 t_user].
    rewrite chk_true by (apply qlt_t; exact U3). cbn [bind].
    eexists. split; [reflexivity|]. cbv beta iota.
    split; [|cbn [time0 accepted converged]; rewrite (tick_untick P D); split; [lia|reflexivity]].
    constructor; cbn [time0 time1 t_user t_err t_amb eq_ control accepted converged];
      rewrite ?(tick_untick P D); try lia; try reflexivity; try assumption.
    + intros e He. destruct (L3 e He) as [H|H]; [left; now apply Q3|right; auto].
    + constructor; cbn [time0 time1 t_user t_err t_amb eq_ control accepted converged];
        rewrite ?(tick_untick P D); try assumption.
      * intros _. repeat split; try lia; try assumption; intros; discriminate.
      * intros; discriminate.
  - (* rejected *)
    assert (T1 : (untick P (base P s) < t_user s)%Q).
    { pose proof (untick_lt P D (base P s) (tick P (t_user s)) ltac:(lia)). lra. }
    rewrite chk_true by (apply qlt_t; exact T1). cbn [bind].
    assert (AD : advance P s (mk_tst (untick P nt) (untick P (base P s)) (t_user s) err amb (eq_ s) k (i_conv i) false)).
    { constructor; cbn [time0 time1 t_user t_err t_amb eq_ control accepted converged];
        rewrite ?(tick_untick P D); try lia; try reflexivity; try assumption.
        + intros e He. now left.
      + constructor; cbn [time0 time1 t_user t_err t_amb eq_ control accepted converged];
          rewrite ?(tick_untick P D); try assumption.
        * intros; discriminate.
        * intros _. repeat split; try lia; try assumption; intro Cv; now apply R5. }
    destruct (negb (i_conv i) && quitfail P) eqn:Qf.
    + eexists. split; [reflexivity|]. cbv beta iota. split; [exact AD|]. split; [reflexivity|].
      apply andb_prop in Qf. apply Qf.
    + eexists. split; [reflexivity|]. cbv beta iota. split; [exact AD|].
      cbn [time0 accepted converged]. rewrite (tick_untick P D). split; [lia|intros; discriminate].
Qed.

(* ---------- the start ---------- *)

Lemma push_all_sorted : forall q l, StronglySorted Qle l ->
  StronglySorted Qle (fold_left (fun l x => eq_push x l) q l)
  /\ (forall e, In e (fold_left (fun l x => eq_push x l) q l) <-> In e q \/ In e l).
Proof.
  intro q. induction q as [|x r IH]; intros l Hl; cbn [fold_left].
  - split; [assumption|]. intro e. cbn. intuition.
  - destruct (IH (eq_push x l) (eq_push_sorted x l Hl)) as (A & B). split; [assumption|].
    intro e. rewrite B, eq_push_in. cbn. intuition.
Qed.

(* the initial time is on the grid of ticks, the first output time and the queued events are
   not before it *)
Record start_ok (P : tpar) (t : Q) (q reqs : list Q) : Prop := {
  st_grid : t = untick P (tick P t);
  st_pos : (0 <= t)%Q;
  st_tstart : (t == tstart P)%Q \/ tick P t < tick P (tstart P);
  st_events : Forall (fun e => tick P t <= tick P e) q;
  st_reqs : Forall (fun d => (0 < d)%Q) reqs }.

Lemma start_ok_inv : forall P, par_ok P -> forall t q conv tp reqs, start_ok P t q reqs ->
  exists s, start P t q conv tp reqs = Some s /\ inv P s /\ accepted s = true /\ time0 s = t
    /\ time1 s = t /\ t_user s = (if qlt t (tstart P) then tstart P else t + tstrobe P)%Q.
Proof.
  intros P OK t q conv tp reqs [Hg Hp Ht Hq Hr].
  pose proof (ok_dtmin P OK) as D. pose proof (ok_strobe P OK) as Sb.
  unfold start.
  assert (Le : (t <= tstart P)%Q).
  { destruct Ht as [Ht|Ht]; [lra|]. destruct (Qlt_le_dec (tstart P) t) as [L|L]; [|exact L].
    exfalso. pose proof (tick_mono P D (tstart P) t ltac:(lra)). lia. }
  rewrite chk_true by now apply qle_t.
  set (q0 := fold_left (fun l x => eq_push x l) q []).
  destruct (push_all_sorted q [] (SSorted_nil _)) as (S1 & S2). fold q0 in S1, S2.
  set (u := (if qlt t (tstart P) then tstart P else t + tstrobe P)%Q).
  cbv zeta.
  set (k0 := tick P t) in *.
  assert (HU : k0 < tick P u /\ (0 <= u)%Q).
  { unfold u. destruct (qlt t (tstart P)) eqn:L.
    - apply qlt_t in L. split; [|lra]. destruct Ht as [Ht|Ht]; [lra|exact Ht].
    - split; [|lra]. apply Z.lt_le_trans with (tick P (t + dtmin P)).
      + rewrite (tick_plus_dtmin P D) by assumption. fold k0. lia.
      + apply (tick_mono P D). lra. }
  set (s0 := mk_tst t t u 0 0 q0 (if qlt t (tstart P) then scINITIAL else scUSER) conv false).
  destruct (review P tp s0) as [r ok] eqn:ER.
  assert (RR : exists err amb, r = mk_tst t t u err amb q0 (control s0) conv false
             /\ (t + 2 * dtmin P <= amb)%Q /\ (t + (11#10) * dtmin P <= err)%Q).
  { unfold review in ER. injection ER as ER _. cbn [time0 time1 t_user eq_ control converged accepted s0] in ER.
    rewrite <- ER. eexists _, _. split; [reflexivity|].
    split.
    - match goal with |- context [if ?b && ?c then _ else _] => destruct (b && c) eqn:E end; [lra|].
      destruct (qlt (tp_ev tp) (t + 2 * dtmin P)) eqn:L; [lra|]. now apply qlt_f in L.
    - match goal with |- context [if ?b && ?c then _ else _] => destruct (b && c) eqn:E end; [lra|].
      destruct (qlt (tp_err tp) (t + 2 * dtmin P)) eqn:L; [lra|]. apply qlt_f in L. lra. }
  destruct RR as (err & amb & Er & Ha & He). rewrite Er.
  cbn [time0 time1 t_user t_err t_amb eq_ control converged accepted].
  unfold accept. cbn [time0 time1 t_user t_err t_amb eq_ control converged accepted].
  fold k0.
  assert (Q0 : Forall (fun e => k0 <= tick P e) q0).
  { apply Forall_forall. intros e Hin. apply S2 in Hin. destruct Hin as [Hin|[]].
    rewrite Forall_forall in Hq. now apply Hq. }
  destruct (pop_used_ok P k0 q0 D S1 Q0) as (l & El & L1 & L2 & L3 & L4).
  rewrite El. cbn [bind].
  match goal with |- context [request P ?a] => set (a0 := a) end.
  destruct (requests_ok P k0 a0 D Hg reqs l L1 L2 Hr) as (Q1 & Q2 & Q3).
  eexists. split; [reflexivity|]. cbn [time0 time1 t_user accepted].
  split; [|repeat split].
  constructor; cbn [time0 time1 t_user t_err t_amb eq_ control converged accepted]; fold k0;
    try apply HU; try assumption.
  - intros _. split; [lia|]. split; [apply HU|].
    split; [apply (tick_gt P D); rewrite <- Hg; lra|].
    split; [apply (tick_gt P D); rewrite <- Hg; lra|].
    split; [assumption|intros; reflexivity].
  - intros; discriminate.
Qed.
