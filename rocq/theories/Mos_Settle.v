(* the limits let every device reach the voltages of the nodes *)
Require Import Reals ZArith Bool Lra Lia Psatz Arith.
Require Import Verif.Loops Verif.Mos_Model Verif.Mos_Proofs.
Local Open Scope R_scope.

Definition lim_ds (V x : R) (k : nat) : R := Nat.iter k (fun x => fet_limit_vds V x) x.
Definition lim_gs (V o x : R) (k : nat) : R := Nat.iter k (fun x => fet_limit_vgs V x o) x.

Lemma limit_ds_fix V : 0 <= V -> fet_limit_vds V V = V.
Proof.
  intros H. unfold fet_limit_vds. destruct (Rle_dec 3.5 V).
  - destruct (Rlt_dec (3 * V + 2) V); [lra|]. destruct (Rlt_dec V 2); lra.
  - destruct (Rlt_dec 4 V); [lra|]. destruct (Rlt_dec V (-0.5)); lra.
Qed.
Lemma limit_ds_pos V x : 0 <= V -> 0 <= fet_limit_vds V x.
Proof.
  intros H. unfold fet_limit_vds. destruct (Rle_dec 3.5 x).
  - destruct (Rlt_dec (3 * x + 2) V); [lra|]. destruct (Rlt_dec V 2); lra.
  - destruct (Rlt_dec 4 V); [lra|]. destruct (Rlt_dec V (-0.5)); lra.
Qed.
Lemma limit_gs_fix V o : fet_limit_vgs V V o = V.
Proof.
  unfold fet_limit_vgs. cbv zeta. destruct (Rle_dec 3.5 (V - o)); [|destruct (Rle_dec 0 (V - o))].
  - destruct (Rlt_dec (V - o) 2); [lra|]. destruct (Rlt_dec (3 * (V - o) + 2) (V - o)); lra.
  - destruct (Rlt_dec (V - o) (-0.5)); [lra|]. destruct (Rlt_dec 4 (V - o)); lra.
  - destruct (Rlt_dec (V - o) (3 * (V - o) - 2)); [lra|]. destruct (Rlt_dec 0.5 (V - o)); lra.
Qed.

Lemma iter_S {A} (f : A -> A) k x : Nat.iter (Datatypes.S k) f x = Nat.iter k f (f x).
Proof. induction k; [reflexivity|]. change (f (Nat.iter (Datatypes.S k) f x) = f (Nat.iter k f (f x))). now rewrite IHk. Qed.

(* from a large voltage upwards *)
Lemma lim_ds_up V N : 0 <= V -> forall x, 3.5 <= x -> V - x <= INR N -> exists k, lim_ds V x k = V.
Proof.
  intros HV. induction N as [|N IH]; intros x Hx HN.
  - simpl in HN. destruct (Rlt_dec V 2) as [H2|H2].
    + exists 2%nat. unfold lim_ds. rewrite iter_S. simpl. unfold fet_limit_vds.
      destruct (Rle_dec 3.5 x); [|lra]. destruct (Rlt_dec (3 * x + 2) V); [lra|]. destruct (Rlt_dec V 2); [|lra].
      destruct (Rle_dec 3.5 2); [lra|]. destruct (Rlt_dec 4 V); [lra|]. destruct (Rlt_dec V (-0.5)); lra.
    + exists 1%nat. unfold lim_ds. simpl. unfold fet_limit_vds.
      destruct (Rle_dec 3.5 x); [|lra]. destruct (Rlt_dec (3 * x + 2) V); [lra|]. destruct (Rlt_dec V 2); lra.
  - destruct (Rlt_dec (3 * x + 2) V) as [Hb|Hb].
    + destruct (IH (3 * x + 2)) as [k Hk]; [lra | rewrite S_INR in HN; lra |].
      exists (Datatypes.S k). unfold lim_ds. rewrite iter_S.
      replace (fet_limit_vds V x) with (3 * x + 2); [exact Hk|].
      unfold fet_limit_vds. destruct (Rle_dec 3.5 x); [|lra]. destruct (Rlt_dec (3 * x + 2) V); lra.
    + destruct (Rlt_dec V 2) as [H2|H2].
      * exists 2%nat. unfold lim_ds. rewrite iter_S. simpl. unfold fet_limit_vds.
        destruct (Rle_dec 3.5 x); [|lra]. destruct (Rlt_dec (3 * x + 2) V); [lra|]. destruct (Rlt_dec V 2); [|lra].
        destruct (Rle_dec 3.5 2); [lra|]. destruct (Rlt_dec 4 V); [lra|]. destruct (Rlt_dec V (-0.5)); lra.
      * exists 1%nat. unfold lim_ds. simpl. unfold fet_limit_vds.
        destruct (Rle_dec 3.5 x); [|lra]. destruct (Rlt_dec (3 * x + 2) V); [lra|]. destruct (Rlt_dec V 2); lra.
Qed.
Lemma above x : exists N, x <= INR N.
Proof.
  destruct (Rle_dec x 0) as [H|H]; [exists 0%nat; simpl; lra|].
  exists (Z.to_nat (up x)). destruct (archimed x) as [A _]. rewrite INR_IZR_INZ.
  rewrite Z2Nat.id; [lra|]. apply le_IZR. lra.
Qed.
Lemma lim_ds_reaches V x : 0 <= V -> exists k, lim_ds V x k = V.
Proof.
  intros HV. destruct (Rle_dec 3.5 x) as [H|H].
  - destruct (above (V - x)) as [N HN]. eapply lim_ds_up; eassumption.
  - destruct (Rlt_dec 4 V) as [H4|H4].
    + destruct (above (V - 4)) as [N HN]. destruct (lim_ds_up V N HV 4) as [k Hk]; [lra | assumption |].
      exists (Datatypes.S k). unfold lim_ds. rewrite iter_S. replace (fet_limit_vds V x) with 4; [exact Hk|].
      unfold fet_limit_vds. destruct (Rle_dec 3.5 x); [lra|]. destruct (Rlt_dec 4 V); lra.
    + exists 1%nat. unfold lim_ds. simpl. unfold fet_limit_vds. destruct (Rle_dec 3.5 x); [lra|].
      destruct (Rlt_dec 4 V); [lra|]. destruct (Rlt_dec V (-0.5)); lra.
Qed.

(* ---- the gate ---- *)
Lemma lim_gs_step V o x y : fet_limit_vgs V x o = y -> (exists k, lim_gs V o y k = V) -> exists k, lim_gs V o x k = V.
Proof. intros E [k Hk]. exists (Datatypes.S k). unfold lim_gs. rewrite iter_S. rewrite E. exact Hk. Qed.
Lemma lim_gs_there V o : exists k, lim_gs V o V k = V. Proof. exists 0%nat. reflexivity. Qed.

Ltac gs := unfold fet_limit_vgs; cbv zeta; repeat match goal with |- context [Rle_dec ?a ?b] => destruct (Rle_dec a b) | |- context [Rlt_dec ?a ?b] => destruct (Rlt_dec a b) end; lra.

(* strong on, the voltage is higher *)
Lemma lim_gs_up V o N : forall x, 3.5 <= x - o -> 2 <= V - o -> V - x <= INR N -> exists k, lim_gs V o x k = V.
Proof.
  induction N as [|N IH]; intros x Hx HV HN.
  - simpl in HN. apply (lim_gs_step V o x V); [gs | apply lim_gs_there].
  - destruct (Rlt_dec (3 * (x - o) + 2) (V - o)) as [H|H].
    + apply (lim_gs_step V o x (3 * (x - o) + 2 + o)); [gs|]. apply IH; [lra | lra |]. rewrite S_INR in HN. lra.
    + apply (lim_gs_step V o x V); [gs | apply lim_gs_there].
Qed.
(* off, the voltage is lower *)
Lemma lim_gs_down V o N : forall x, x - o < 0 -> V - o <= 0.5 -> x - V <= INR N -> exists k, lim_gs V o x k = V.
Proof.
  induction N as [|N IH]; intros x Hx HV HN.
  - simpl in HN. apply (lim_gs_step V o x V); [gs | apply lim_gs_there].
  - destruct (Rlt_dec (V - o) (3 * (x - o) - 2)) as [H|H].
    + apply (lim_gs_step V o x (3 * (x - o) - 2 + o)); [gs|]. apply IH; [lra | lra |]. rewrite S_INR in HN. lra.
    + apply (lim_gs_step V o x V); [gs | apply lim_gs_there].
Qed.
Lemma lim_gs_mid V o x : 0 <= x - o < 3.5 -> exists k, lim_gs V o x k = V.
Proof.
  intros Hx. destruct (Rlt_dec (V - o) (-0.5)) as [H|H]; [|destruct (Rlt_dec 4 (V - o)) as [H1|H1]].
  - apply (lim_gs_step V o x (-0.5 + o)); [gs|]. destruct (above (-0.5 + o - V)) as [N HN]. apply (lim_gs_down V o N); [lra | lra | assumption].
  - apply (lim_gs_step V o x (4 + o)); [gs|]. destruct (above (V - (4 + o))) as [N HN]. apply (lim_gs_up V o N); [lra | lra | assumption].
  - apply (lim_gs_step V o x V); [gs | apply lim_gs_there].
Qed.
Lemma lim_gs_reaches V o x : exists k, lim_gs V o x k = V.
Proof.
  destruct (Rle_dec 3.5 (x - o)) as [H|H]; [|destruct (Rle_dec 0 (x - o)) as [H1|H1]].
  - destruct (Rlt_dec (V - o) 2) as [H2|H2].
    + apply (lim_gs_step V o x (2 + o)); [gs|]. apply lim_gs_mid. lra.
    + destruct (above (V - x)) as [N HN]. apply (lim_gs_up V o N); [assumption | lra | assumption].
  - apply lim_gs_mid. lra.
  - destruct (Rlt_dec 0.5 (V - o)) as [H2|H2].
    + apply (lim_gs_step V o x (0.5 + o)); [gs|]. apply lim_gs_mid. lra.
    + destruct (above (x - V)) as [N HN]. apply (lim_gs_down V o N); [lra | lra | assumption].
Qed.

Lemma lim_stay {A} (f : A -> A) x v k : Nat.iter k f x = v -> f v = v -> forall j, (k <= j)%nat -> Nat.iter j f x = v.
Proof.
  intros H F j Hj. induction Hj as [|j Hj IH]; [assumption|]. change (f (Nat.iter j f x) = v). rewrite IH. assumption.
Qed.

(* ---- iterations of the device ---- *)
Section I.
Variables (m : model) (t : tdep) (e : env) (n : nodes).
Hypothesis (Hr : in_range e n) (Hi : initial_step e = false) (Hp : 0 < t_phi t) (Hm : 0 <= phi m).

Lemma iterate_plus j k s : iterate m t e n (j + k) s = (let* d := iterate m t e n k s in iterate m t e n j d).
Proof.
  induction j as [|j IH]; simpl.
  - destruct (iterate m t e n k s); reflexivity.
  - rewrite IH. destruct (iterate m t e n k s); reflexivity.
Qed.

(* one step, in terms of the voltages *)
Lemma step s : exists d, do_tr m t e n s = Some d /\ 0 <= vds d /\
  let rv := reversed s in
  let g := fet_limit_vgs (Vgs m n rv) (vgs s) (von s) in
  let v := if tied e then Vds m n rv + (g - Vgs m n rv) else fet_limit_vds (Vds m n rv) (vds s) in
  if Rlt_dec v 0 then reversed d = negb rv /\ vds d = - v /\ vgs d = g - v
  else reversed d = rv /\ vds d = v /\ vgs d = g /\ von d = threshold m t (fmin (Vbs m n rv) 0).
Proof.
  destruct (do_tr_total m t e n s Hp Hm) as [d Hd]. exists d. split; [assumption|].
  destruct (do_tr_inv _ _ _ _ _ _ Hd) as (rv & ds & gs & bs & d0 & Hn & Ht & E1 & E2 & E3 & E4 & E5 & _).
  rewrite (new_volts_in _ _ _ _ Hr Hi) in Hn. cbv zeta in Hn. injection Hn as N1 N2 N3 N4.
  destruct (tr_eval_inv _ _ _ _ _ _ _ _ _ Ht) as (rv' & ds' & gs' & bs' & sarg & dsarg & fwd & on & Hrev & Hb & Ho & H0 & _ & F1 & F2 & F3 & F4 & F5 & _).
  split; [rewrite E2, F2; assumption|]. cbv zeta. rewrite N2, N3.
  unfold reverse_if_needed in Hrev. destruct (Rlt_dec ds 0).
  - injection Hrev as R1 R2 R3 R4. rewrite E1, F1, E2, F2, E3, F3. rewrite N1. auto.
  - injection Hrev as R1 R2 R3 R4. rewrite E1, F1, E2, F2, E3, F3, E5, F5. rewrite N1. repeat split; auto.
    rewrite <- R4, <- N4 in Hb. rewrite bulk_off_value in Hb; [|apply fmin_le | assumption].
    injection Hb as B1 B2 B3. rewrite <- B1 in Ho. rewrite N1 in Ho. apply von_threshold in Ho. exact Ho.
Qed.

Definition right (s : dev) : Prop := 0 <= Vds m n (reversed s) /\ 0 <= vds s.

Section Untied.
Hypothesis Hu : tied e = false.

Lemma right_step s : right s -> exists d, do_tr m t e n s = Some d /\ right d /\ reversed d = reversed s /\
  vds d = fet_limit_vds (Vds m n (reversed s)) (vds s) /\ vgs d = fet_limit_vgs (Vgs m n (reversed s)) (vgs s) (von s) /\
  von d = threshold m t (fmin (Vbs m n (reversed s)) 0).
Proof.
  intros [R1 R2]. destruct (step s) as (d & Hd & H0 & Hs). exists d. split; [assumption|]. cbv zeta in Hs. rewrite Hu in Hs.
  destruct (Rlt_dec _ 0) as [H|H].
  - assert (A := limit_ds_pos _ (vds s) R1). lra.
  - destruct Hs as (S1 & S2 & S3 & S4). unfold right. rewrite S1. auto.
Qed.

(* the orientation is right after two iterations *)
Lemma turns s : 0 <= vds s -> exists k d, iterate m t e n k s = Some d /\ right d.
Proof.
  intros H0. destruct (Rle_dec 0 (Vds m n (reversed s))) as [H|H].
  - exists 0%nat, s. split; [reflexivity | split; assumption].
  - assert (T : forall s, vds s < 3.5 -> Vds m n (reversed s) < 0 -> exists d, do_tr m t e n s = Some d /\ right d).
    { intros s1 S1 S2. destruct (step s1) as (d & Hd & Hpos & Hs). exists d. split; [assumption|]. cbv zeta in Hs. rewrite Hu in Hs.
      assert (A : fet_limit_vds (Vds m n (reversed s1)) (vds s1) < 0).
      { unfold fet_limit_vds. destruct (Rle_dec 3.5 (vds s1)); [lra|]. destruct (Rlt_dec 4 _); [lra|]. destruct (Rlt_dec _ (-0.5)); lra. }
      destruct (Rlt_dec _ 0); [|lra]. destruct Hs as (S3 & _ & _). split; [|assumption].
      rewrite S3. rewrite (proj1 (Vneg m n (reversed s1))). lra. }
    destruct (Rle_dec 3.5 (vds s)) as [H3|H3].
    + destruct (step s) as (d1 & Hd & Hpos & Hs). cbv zeta in Hs. rewrite Hu in Hs.
      assert (A : fet_limit_vds (Vds m n (reversed s)) (vds s) = 2).
      { unfold fet_limit_vds. destruct (Rle_dec 3.5 (vds s)); [|lra]. destruct (Rlt_dec _ (Vds m n (reversed s))); [lra|].
        destruct (Rlt_dec (Vds m n (reversed s)) 2); lra. }
      rewrite A in Hs. destruct (Rlt_dec 2 0); [lra|]. destruct Hs as (S1 & S2 & _ & _).
      destruct (T d1) as (d & Hd2 & Hr2); [lra | rewrite S1; lra |].
      exists 2%nat, d. split; [|assumption]. simpl. rewrite Hd. simpl. assumption.
    + destruct (T s) as (d & Hd & Hr2); [lra | lra |]. exists 1%nat, d. split; [|assumption]. simpl. assumption.
Qed.

(* then the voltages run through the limits on their own *)
Lemma run s o : right s -> von s = o -> o = threshold m t (fmin (Vbs m n (reversed s)) 0) -> forall k,
  exists d, iterate m t e n k s = Some d /\ right d /\ reversed d = reversed s /\ von d = o /\
    vds d = lim_ds (Vds m n (reversed s)) (vds s) k /\ vgs d = lim_gs (Vgs m n (reversed s)) o (vgs s) k.
Proof.
  intros Hs Ho Hth k. induction k as [|k IH].
  - exists s. repeat split; auto; apply Hs.
  - destruct IH as (d & I1 & I2 & I3 & I4 & I5 & I6). destruct (right_step d I2) as (d' & D1 & D2 & D3 & D4 & D5 & D6).
    exists d'. simpl. rewrite I1. simpl. split; [assumption|]. split; [assumption|]. split; [congruence|].
    rewrite I3 in *. split; [congruence|]. unfold lim_ds, lim_gs in *. simpl. rewrite <- I5, <- I6. rewrite I4 in D5. auto.
Qed.

Lemma settles_untied s : 0 <= vds s -> exists K, forall j, (K <= j)%nat -> exists d, iterate m t e n j s = Some d /\ evaluated_at m n d.
Proof.
  intros H0. destruct (turns s H0) as (k1 & d1 & T1 & T2). destruct (right_step d1 T2) as (d2 & D1 & D2 & D3 & _ & _ & D6).
  rewrite <- D3 in D6.
  destruct (lim_ds_reaches (Vds m n (reversed d2)) (vds d2) (proj1 D2)) as [ka Ha].
  destruct (lim_gs_reaches (Vgs m n (reversed d2)) (von d2) (vgs d2)) as [kb Hb].
  exists (ka + kb + (1 + k1))%nat. intros j Hj.
  replace j with ((j - (1 + k1)) + (1 + k1))%nat by lia. rewrite iterate_plus, (iterate_plus 1 k1), T1.
  simpl (let* d := Some d1 in iterate m t e n 1 d). cbn [iterate bind]. rewrite D1. cbn [bind].
  destruct (run d2 (von d2) D2 eq_refl D6 (j - (1 + k1))) as (d & I1 & I2 & I3 & I4 & I5 & I6).
  exists d. split; [assumption|]. apply evaluated_at_V. rewrite I3, I5, I6. split.
  - apply (lim_stay _ _ _ ka Ha); [apply limit_ds_fix; apply D2 | lia].
  - apply (lim_stay _ _ _ kb Hb); [apply limit_gs_fix | lia].
Qed.
End Untied.

Section Tied.
Hypothesis (Ht : tied e = true) (Hg : nd n = ng n).

Lemma tied_V rv : Vgs m n rv = if rv then 0 else Vds m n rv.
Proof. unfold Vgs, Vds. rewrite <- Hg. destruct rv; ring. Qed.

(* when the gate voltage is that of the nodes, so is everything after one more iteration *)
Lemma tied_match s : vgs s = Vgs m n (reversed s) -> exists d, do_tr m t e n s = Some d /\ vds d = Vds m n (reversed d) /\ vgs d = Vgs m n (reversed d).
Proof.
  intros E. destruct (step s) as (d & Hd & H0 & Hs). exists d. split; [assumption|]. cbv zeta in Hs. rewrite Ht, E, limit_gs_fix in Hs.
  replace (Vds m n (reversed s) + (Vgs m n (reversed s) - Vgs m n (reversed s))) with (Vds m n (reversed s)) in Hs by ring.
  destruct (Rlt_dec _ 0).
  - destruct Hs as (S1 & S2 & S3). rewrite S1, S2, S3. destruct (Vneg m n (reversed s)) as (N1 & N2 & _). rewrite N1, N2. auto.
  - destruct Hs as (S1 & S2 & S3 & _). rewrite S1. auto.
Qed.

(* a change of orientation sets the gate voltage *)
Lemma tied_reach k : forall s, von s = threshold m t (fmin (Vbs m n (reversed s)) 0) -> lim_gs (Vgs m n (reversed s)) (von s) (vgs s) k = Vgs m n (reversed s) ->
  exists j d, iterate m t e n j s = Some d /\ vgs d = Vgs m n (reversed d).
Proof.
  induction k as [|k IH]; intros s Ho Hk.
  - exists 0%nat, s. split; [reflexivity | exact Hk].
  - destruct (step s) as (d & Hd & H0 & Hs). cbv zeta in Hs. rewrite Ht in Hs. destruct (Rlt_dec _ 0).
    + destruct Hs as (S1 & S2 & S3). exists 1%nat, d. split; [exact Hd|]. rewrite S1, S3.
      destruct (Vneg m n (reversed s)) as (_ & N2 & _). rewrite N2. ring.
    + destruct Hs as (S1 & S2 & S3 & S4). destruct (IH d) as (j & d' & J1 & J2).
      * rewrite S1. assumption.
      * rewrite S1, S3, S4, <- Ho. unfold lim_gs in *. rewrite iter_S in Hk. exact Hk.
      * exists (j + 1)%nat, d'. split; [|assumption]. rewrite iterate_plus. cbn [iterate bind]. rewrite Hd. exact J1.
Qed.

Lemma tied_reach' s : exists j d, iterate m t e n j s = Some d /\ vgs d = Vgs m n (reversed d).
Proof.
  destruct (step s) as (d & Hd & H0 & Hs). cbv zeta in Hs. rewrite Ht in Hs. destruct (Rlt_dec _ 0).
  - destruct Hs as (S1 & S2 & S3). exists 1%nat, d. split; [exact Hd|]. rewrite S1, S3.
    destruct (Vneg m n (reversed s)) as (_ & N2 & _). rewrite N2. ring.
  - destruct Hs as (S1 & S2 & S3 & S4). rewrite <- S1 in S4.
    destruct (lim_gs_reaches (Vgs m n (reversed d)) (von d) (vgs d)) as [k Hk].
    destruct (tied_reach k d S4 Hk) as (j & d' & J1 & J2).
    exists (j + 1)%nat, d'. split; [|assumption]. rewrite iterate_plus. cbn [iterate bind]. rewrite Hd. exact J1.
Qed.

Lemma settles_tied s : exists K, forall j, (K <= j)%nat -> exists d, iterate m t e n j s = Some d /\ evaluated_at m n d.
Proof.
  destruct (tied_reach' s) as (k & d & K1 & K2). exists (1 + k)%nat. intros j Hj.
  replace j with (Datatypes.S (j - (1 + k)) + k)%nat by lia. rewrite iterate_plus, K1. cbn [bind].
  generalize (j - (1 + k))%nat. clear j Hj. intros i.
  assert (P : exists d', iterate m t e n (Datatypes.S i) d = Some d' /\ vds d' = Vds m n (reversed d') /\ vgs d' = Vgs m n (reversed d')).
  { induction i as [|i IH].
    - destruct (tied_match d K2) as (d' & A & B & C). exists d'. simpl. auto.
    - destruct IH as (d' & I1 & I2 & I3). destruct (tied_match d' I3) as (d'' & A & B & C). exists d''.
      change (iterate m t e n (Datatypes.S (Datatypes.S i)) d) with (let* q := iterate m t e n (Datatypes.S i) d in do_tr m t e n q).
      rewrite I1. cbn [bind]. auto. }
  destruct P as (d' & P1 & P2). exists d'. split; [assumption|]. apply evaluated_at_V. assumption.
Qed.
End Tied.
End I.
