(* C71: the transmission line in ac analysis, and its parameters *)
Require Import ZArith List Bool Lia Reals Lra.
Require Import Verif.Trln_Model.
Import ListNotations.
Local Open Scope R_scope.

Definition csub (a b : cplx) : cplx := cadd a (copp b).
(* e to the -j theta: a delay by the angle theta *)
Definition phase (theta : R) : cplx := (cos theta, - sin theta).
(* the real power that v and i carry *)
Definition power (v i : cplx) : R := fst v * fst i + snd v * snd i.
(* the current that the entries of row r draw from node r *)
Definition row_current (E : entries cplx) (v : nat -> cplx) (r : nat) : cplx :=
  fold_right (fun e x => cadd (if Nat.eqb (fst (fst e)) r then cmul (snd e) (v (snd (fst e))) else (0, 0)) x) (0, 0) E.
Definition at_nodes (a b : nat) (x : cplx) (r : nat) : cplx :=
  csub (if Nat.eqb r a then x else (0, 0)) (if Nat.eqb r b then x else (0, 0)).

(* ---------------------------------------------------------------- lemmas *)
Ltac cx := unfold csub, cadd, cmul, copp, creal in *; cbn [fst snd] in *; apply injective_projections; cbn [fst snd].

Lemma row_app : forall E F v r, row_current (E ++ F) v r = cadd (row_current E v r) (row_current F v r).
Proof.
  intros E F v r. induction E as [|e E IH].
  - unfold row_current at 2. cbn [app fold_right]. destruct (row_current F v r). cx; ring.
  - unfold row_current in *. cbn [app fold_right]. rewrite IH. cx; ring.
Qed.

Lemma row_symmetric : forall i j y v r, v O = (0, 0) -> r <> O ->
  row_current (load_symmetric copp i j y) v r = at_nodes i j (cmul y (csub (v i) (v j))) r.
Proof.
  intros i j y v r V R. unfold load_symmetric, at_nodes. destruct r as [|r]; [congruence|].
  destruct j as [|j]; destruct i as [|i]; cbn [Nat.ltb Nat.leb row_current fold_right fst snd].
  - cx; cbn; ring.
  - rewrite (Nat.eqb_sym (S r) (S i)). destruct (Nat.eqb (S i) (S r)); cbn [Nat.eqb]; rewrite ?V; cx; ring.
  - rewrite (Nat.eqb_sym (S r) (S j)). destruct (Nat.eqb (S j) (S r)); cbn [Nat.eqb]; rewrite ?V; cx; ring.
  - rewrite (Nat.eqb_sym (S r) (S i)), (Nat.eqb_sym (S r) (S j)).
    destruct (Nat.eqb (S j) (S r)), (Nat.eqb (S i) (S r)); cx; ring.
Qed.

Lemma row_asymmetric : forall r1 r2 c1 c2 y v r, v O = (0, 0) -> r <> O ->
  row_current (load_asymmetric copp r1 r2 c1 c2 y) v r = at_nodes r1 r2 (cmul y (csub (v c1) (v c2))) r.
Proof.
  intros r1 r2 c1 c2 y v r V R. unfold load_asymmetric, at_nodes. destruct r as [|r]; [congruence|].
  assert (P : forall k, (Nat.eqb (S r) k = true -> Nat.ltb 0 k = true)).
  { intros k H. apply Nat.eqb_eq in H. subst. reflexivity. }
  rewrite (Nat.eqb_sym (S r) r1), (Nat.eqb_sym (S r) r2).
  destruct c1 as [|c1], c2 as [|c2], r1 as [|r1], r2 as [|r2]; cbn [Nat.ltb Nat.leb app row_current fold_right fst snd Nat.eqb]; rewrite ?V;
    try destruct (Nat.eqb r1 r); try destruct (Nat.eqb r2 r); cx; ring.
Qed.

Lemma tol_pos : 0 < linlentol < /2.
Proof. unfold linlentol. lra. Qed.

Lemma rfloor_spec : forall x, IZR (rfloor x) <= x < IZR (rfloor x) + 1.
Proof. intros x. unfold rfloor. rewrite minus_IZR. destruct (archimed x). lra. Qed.

Lemma quarter_waves_spec : forall f t, let x := f * t * 4 in let q := quarter_waves f t in
  Rabs (q - x) <= linlentol /\ (forall k, q <> IZR k) /\
  ((forall k, linlentol <= Rabs (x - IZR k)) -> q = x).
Proof.
  intros f t x q. unfold q, quarter_waves. fold x. pose proof tol_pos as [TP TH].
  pose proof (rfloor_spec (x + 0.5)) as [F1 F2]. set (n := rfloor (x + 0.5)) in *. 
  assert (NI : forall d k, 0 < Rabs d < 1 -> IZR n + d <> IZR k).
  { intros d k [D1 D2] E. assert (E' : d = IZR (k - n)) by (rewrite minus_IZR; lra).
    rewrite E' in D1, D2. rewrite <- abs_IZR in D1, D2.
    apply (lt_IZR 0) in D1. apply (lt_IZR _ 1) in D2. lia. }
  destruct (Rlt_dec (Rabs (x - IZR n)) linlentol) as [L|L].
  - apply Rabs_def2 in L as [L1 L2]. destruct (Rlt_dec (x - IZR n) 0) as [D|D].
    + split; [apply Rabs_le; lra|]. split.
      * intros k. replace (IZR n - linlentol) with (IZR n + - linlentol) by ring. apply NI. rewrite Rabs_Ropp, Rabs_pos_eq by lra. lra.
      * intros H. exfalso. specialize (H n). rewrite Rabs_left in H by lra. lra.
    + split; [apply Rabs_le; lra|]. split.
      * intros k. apply NI. rewrite Rabs_pos_eq by lra. lra.
      * intros H. exfalso. specialize (H n). rewrite Rabs_pos_eq in H by lra. lra.
  - split; [replace (x - x) with 0 by ring; rewrite Rabs_R0; lra|]. split; [|reflexivity].
    intros k. replace x with (IZR n + (x - IZR n)) by ring. apply NI. split; [lra|]. apply Rabs_def1; lra.
Qed.

Lemma angle_ok : forall q, (forall k, q <> IZR k) -> sin (q * (PI / 2)) <> 0 /\ cos (q * (PI / 2)) <> 0.
Proof.
  intros q H. pose proof PI_RGT_0 as P. split; intros E.
  - apply sin_eq_0_0 in E as [k E]. apply (H (2 * k)%Z). rewrite mult_IZR.
    apply (Rmult_eq_reg_r (PI / 2)); [|lra]. lra.
  - apply cos_eq_0_0 in E as [k E]. apply (H (2 * k + 1)%Z). rewrite plus_IZR, mult_IZR.
    apply (Rmult_eq_reg_r (PI / 2)); [|lra]. lra.
Qed.

(* ---------------------------------------------------------------- theorems *)

(* At every frequency the line is defined; the currents that its entries draw from the nodes are those of two ports;
   and each port receives the wave v + z0 i that entered the other one, delayed by the angle 2 pi f td (or by one that
   differs by less than a millionth of a quarter wave, next to a resonance). *)
Theorem C71_ac : forall freq rtd rz0 mf n (v : nat -> cplx), 0 < rz0 -> v O = (0, 0) ->
  let V1 := csub (v (in1 n)) (v (in2 n)) in let V2 := csub (v (out1 n)) (v (out2 n)) in
  exists y11 y12 theta I1 I2,
    do_ac freq rtd rz0 = Some (y11, y12) /\
    Rabs (theta - 2 * PI * freq * rtd) <= 1e-6 * (PI / 2) /\
    ((forall k, 1e-6 <= Rabs (4 * freq * rtd - IZR k)) -> theta = 2 * PI * freq * rtd) /\
    (forall r, r <> O -> row_current (ac_load mf n y11 y12) v r =
       cadd (at_nodes (in1 n) (in2 n) (cmul (creal mf) I1) r) (at_nodes (out1 n) (out2 n) (cmul (creal mf) I2) r)) /\
    csub V2 (cmul (creal rz0) I2) = cmul (phase theta) (cadd V1 (cmul (creal rz0) I1)) /\
    csub V1 (cmul (creal rz0) I1) = cmul (phase theta) (cadd V2 (cmul (creal rz0) I2)) /\
    power V1 I1 + power V2 I2 = 0.
Proof.
  intros freq rtd rz0 mf n v Z V0 V1 V2. destruct (quarter_waves_spec freq rtd) as (Q1 & Q2 & Q3).
  set (q := quarter_waves freq rtd) in *. set (theta := q * (PI / 2)).
  destruct (angle_ok q Q2) as [SN CN]. fold theta in SN, CN. pose proof PI_RGT_0 as PP.
  assert (TN : tan theta <> 0) by (unfold tan; intros E; apply Rmult_integral in E as [E|E]; [contradiction|]; now apply Rinv_neq_0_compat in E).
  set (g := 1 / (rz0 * tan theta)). set (h := 1 / (rz0 * sin theta)).
  assert (GT : g = cos theta / (rz0 * sin theta)) by (unfold g, tan; field; repeat split; (assumption || lra)).
  exists (0, - g), (0, - h), theta,
    (csub (cmul (0, - g) V1) (cmul (0, - h) V2)), (csub (cmul (0, - g) V2) (cmul (0, - h) V1)).
  split.
  { unfold do_ac. fold q. fold theta.
    destruct (Req_EM_T (rz0 * sin theta) 0) as [E|_]; [apply Rmult_integral in E as [E|E]; [lra|contradiction]|].
    destruct (Req_EM_T (cos theta) 0) as [E|_]; [contradiction|].
    destruct (Req_EM_T (rz0 * tan theta) 0) as [E|_]; [apply Rmult_integral in E as [E|E]; [lra|contradiction]|].
    unfold g, h. do 2 f_equal; f_equal; field; repeat split; (assumption || lra). }
  split.
  { replace (theta - 2 * PI * freq * rtd) with ((q - freq * rtd * 4) * (PI / 2)) by (unfold theta; field).
    rewrite Rabs_mult, (Rabs_pos_eq (PI / 2)) by lra. apply Rmult_le_compat_r; [lra|]. exact Q1. }
  split.
  { intros H. unfold theta. rewrite Q3; [field|]. intros k. replace (freq * rtd * 4) with (4 * freq * rtd) by ring. apply H. }
  split.
  { intros r R. unfold ac_load. rewrite !row_app, !row_symmetric, !row_asymmetric by assumption.
    unfold at_nodes, V1, V2. destruct (Nat.eqb r (out1 n)), (Nat.eqb r (out2 n)), (Nat.eqb r (in1 n)), (Nat.eqb r (in2 n)); cx; ring. }
  pose proof (sin2_cos2 theta) as SC. unfold Rsqr in SC.
  assert (ZG : rz0 * g * sin theta = cos theta) by (rewrite GT; field; split; (assumption || lra)).
  assert (ZH : rz0 * h * sin theta = 1) by (unfold h; field; split; (assumption || lra)).
  assert (ZGC : rz0 * g * cos theta = rz0 * h - sin theta).
  { rewrite GT. unfold h. apply (Rmult_eq_reg_r (sin theta)); [|exact SN]. 
    replace (rz0 * (cos theta / (rz0 * sin theta)) * cos theta * sin theta) with (cos theta * cos theta) by (field; split; (assumption || lra)).
    replace ((rz0 * (1 / (rz0 * sin theta)) - sin theta) * sin theta) with (1 - sin theta * sin theta) by (field; split; (assumption || lra)). lra. }
  assert (ZHC : rz0 * h * cos theta = rz0 * g).
  { rewrite GT. unfold h. field. split; (assumption || lra). }
  assert (LIN : forall x, rz0 * g * sin theta * x = cos theta * x /\ rz0 * h * sin theta * x = x /\
    rz0 * g * cos theta * x = rz0 * h * x - sin theta * x /\ rz0 * h * cos theta * x = rz0 * g * x).
  { intros x. rewrite ZG, ZH, ZGC, ZHC. repeat split; ring. }
  split; [|split].
  - destruct V1 as [a b], V2 as [c d]. pose proof (LIN a) as (? & ? & ? & ?). pose proof (LIN b) as (? & ? & ? & ?).
    pose proof (LIN c) as (? & ? & ? & ?). pose proof (LIN d) as (? & ? & ? & ?). unfold phase. cx; lra.
  - destruct V1 as [a b], V2 as [c d]. pose proof (LIN a) as (? & ? & ? & ?). pose proof (LIN b) as (? & ? & ? & ?).
    pose proof (LIN c) as (? & ? & ? & ?). pose proof (LIN d) as (? & ? & ? & ?). unfold phase. cx; lra.
  - destruct V1 as [a b], V2 as [c d]. unfold power, csub, cadd, cmul, copp. cbn [fst snd]. ring.
Qed.

(* a line given by its inductance and capacitance per length has them in total; one given by a number of wave lengths
   has that number at that frequency; one given by a delay has it *)
Theorem C71_parameters : forall c,
  (forall l k, c_td c = None -> c_f c = None -> c_z0 c = None -> c_L c = Some l -> c_C c = Some k -> 0 < l -> 0 < k ->
     exists t, real_td c = Some t /\ 0 < real_z0 c /\ real_z0 c * t = c_len c * l /\ t = c_len c * k * real_z0 c) /\
  (forall f, c_td c = None -> c_f c = Some f -> f <> 0 -> exists t, real_td c = Some t /\ f * t = c_len c * c_nl c) /\
  (forall t, c_td c = Some t -> real_td c = Some (c_len c * t)).
Proof.
  intros c. split; [|split].
  - intros l k T F Z L C Pl Pk. unfold real_td, real_z0. rewrite T, F, Z, L, C. eexists. split; [reflexivity|].
    assert (Pq : 0 < l / k) by (apply Rdiv_lt_0_compat; assumption).
    assert (Q : sqrt (l / k) * sqrt (l * k) = l).
    { rewrite <- sqrt_mult by nra. replace (l / k * (l * k)) with (l * l) by (field; lra). apply sqrt_square. lra. }
    assert (Q2 : sqrt (l * k) = k * sqrt (l / k)).
    { apply (Rmult_eq_reg_l (sqrt (l / k))); [|apply Rgt_not_eq, sqrt_lt_R0, Pq]. rewrite Q.
      replace (sqrt (l / k) * (k * sqrt (l / k))) with (k * (sqrt (l / k) * sqrt (l / k))) by ring. rewrite sqrt_def by lra. field. lra. }
    split; [apply sqrt_lt_R0, Pq|]. split.
    + replace (sqrt (l / k) * (c_len c * sqrt (l * k))) with (c_len c * (sqrt (l / k) * sqrt (l * k))) by ring. now rewrite Q.
    + rewrite Q2. ring.
  - intros f T F NZ. unfold real_td. rewrite T, F. eexists. split; [reflexivity|]. field. exact NZ.
  - intros t T. unfold real_td. now rewrite T.
Qed.

(* ---------------------------------------------------------------- cases *)
(* an eighth of a wave: away from a resonance; a quarter: at one *)
Example C71_ac_case : (forall k, 1e-6 <= Rabs (4 * 1 * (1/8) - IZR k)) /\ quarter_waves 1 (1/8) = 1/2 /\
  quarter_waves 1 (1/4) <> 1 /\ quarter_waves 0 1 <> 0 /\
  exists v : nat -> cplx, v O = (0, 0) /\ csub (v 1%nat) (v 2%nat) <> (0, 0).
Proof.
  assert (A : forall k, 1e-6 <= Rabs (4 * 1 * (1/8) - IZR k)).
  { intros k. destruct (Z.le_gt_cases k 0) as [L|L].
    - apply IZR_le in L. rewrite Rabs_pos_eq; lra.
    - assert (1 <= k)%Z as L1 by lia. apply IZR_le in L1. rewrite Rabs_left; lra. }
  split; [exact A|]. split.
  - destruct (quarter_waves_spec 1 (1/8)) as (_ & _ & Q). rewrite Q; [lra|]. intros k. replace (1 * (1/8) * 4) with (4 * 1 * (1/8)) by lra. apply A.
  - split; [exact (proj1 (proj2 (quarter_waves_spec 1 (1/4))) 1%Z)|].
    split; [exact (proj1 (proj2 (quarter_waves_spec 0 1)) 0%Z)|].
    exists (fun k => match k with 1%nat => (1, 2) | _ => (0, 0) end). split; [reflexivity|].
    unfold csub, cadd, copp. cbn. intros E. injection E. lra.
Qed.
Example C71_parameters_case : let c := Card 2 (Some 4) (Some 1) None None None (1/4) in
  c_td c = None /\ c_f c = None /\ c_z0 c = None /\ real_z0 c = 2 /\ real_td c = Some 4.
Proof.
  cbv zeta. repeat split.
  - unfold real_z0. cbn. replace (4 / 1) with (2 * 2) by lra. apply sqrt_square. lra.
  - unfold real_td. cbn. replace (4 * 1) with (2 * 2) by lra. rewrite sqrt_square by lra. f_equal; lra.
Qed.

Print Assumptions C71_ac.
Print Assumptions C71_parameters.
