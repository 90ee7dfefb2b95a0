(* What port_impedance computes, and the balance of power, in any exact field. *)
Require Import ZArith List Bool Lia Field.
Require Import Verif.Loops Verif.FieldSums Verif.Matrix_Model Verif.Matrix_Layout Verif.Matrix_LU Verif.Matrix_Load Verif.Matrix_Exact Verif.Matrix_Spec
  Verif.Matrix_InPlace Verif.Matrix_Main Verif.Solver_Model Verif.Solver_Proofs Verif.Solver_Content Verif.Storage_Model Verif.Elements_Model Verif.Elements_Proofs
  Verif.AC_Model Verif.AC_Proofs Verif.Port_Model.
Import ListNotations.

Section S.
Variable K : fld.
Add Field Kpo : (fth K).
Notation T := (F K).
Notation "0" := (f0 K). Notation "1" := (f1 K).
Notation "a +' b" := (fadd K a b) (at level 50, left associativity).
Notation "a -' b" := (fsub K a b) (at level 50, left associativity).
Notation "a *' b" := (fmul K a b) (at level 40, left associativity).
Notation "a /' b" := (fdiv K a b) (at level 40, left associativity).
Notation "-' a" := (fopp K a) (at level 35, right associativity).
Notation dlt := (delta K).
Notation A := (exA K).

(* x is the response of the linear network with the matrix a (rows 1..s) to a unit current put into
   n1 and taken out of n2, ground at 0 *)
Definition response (s : Z) (a : Z -> Z -> T) (n1 n2 : Z) (x : Z -> T) : Prop :=
  x 0%Z = 0 /\ forall r, (1 <= r <= s)%Z -> tot K s (fun c => a r c *' x c) = dlt r n1 -' dlt r n2.
(* a conductance of one between n1 and n2 *)
Definition across (n1 n2 : Z) (r c : Z) : T := (dlt r n1 -' dlt r n2) *' (dlt c n1 -' dlt c n2).
(* D holds the factors of the matrix a *)
Definition factors (s : Z) (D : data A) (a : Z -> Z -> T) : Prop :=
  wf D /\ diag_ok K D /\ size D = s /\ forall r c, (1 <= r <= s)%Z -> (1 <= c <= s)%Z -> LU K D r c = a r c.

Lemma fz_true : forall x, fz K x = true -> x = 0. Proof. intros x. apply fz_ok. Qed.
Lemma fz_false : forall x, fz K x = false -> x <> 0.
Proof. intros x E H. apply (fz_ok K) in H. congruence. Qed.
Lemma fz_0 : fz K 0 = true. Proof. now apply fz_ok. Qed.
Lemma fz_ne : forall x, x <> 0 -> fz K x = false.
Proof. intros x N. destruct (fz K x) eqn:E; [|reflexivity]. now apply fz_true in E. Qed.

Lemma sub_zero : forall x, x -' 0 = x. Proof. intros. ring. Qed.
Lemma sub_opp : forall x, 0 -' (-' x) = x. Proof. intros. ring. Qed.
Lemma add_nn : forall g d m p u, g +' (d +' m *' u) +' p = g +' d +' p +' m *' u. Proof. intros. ring. Qed.
Lemma coef_nn : forall k1 k2 l1 l2 m y a p, l1 +' l2 = y *' a -> k1 +' m *' l1 +' (k2 +' m *' l2) +' p = k1 +' k2 +' p +' m *' y *' a.
Proof. intros k1 k2 l1 l2 m y a p H. transitivity (k1 +' k2 +' p +' m *' (l1 +' l2)); [ring|]. rewrite H. ring. Qed.
Lemma factors_unique : forall s D a x x', factors s D a ->
  (forall r, (1 <= r <= s)%Z -> tot K s (fun c => a r c *' x c) = tot K s (fun c => a r c *' x' c)) ->
  forall r, (1 <= r <= s)%Z -> x r = x' r.
Proof.
  intros s D a x x' (W & Dg & Sz & HL) H r Hr.
  assert (E : x r -' x' r = 0).
  { apply (LU_zero K D (fun c => x c -' x' c) W Dg); rewrite Sz; [|assumption]. intros q Hq.
    transitivity (tot K s (fun c => a q c *' x c) -' tot K s (fun c => a q c *' x' c)).
    - rewrite <- tot_sub. unfold tot. apply fsum_ext. intros c Hc. rewrite HL by lia. ring.
    - rewrite (H q Hq). ring. }
  transitivity (x' r +' (x r -' x' r)); [ring|]. rewrite E. ring.
Qed.
Lemma response_unique : forall s D a n1 n2 x x', factors s D a -> response s a n1 n2 x -> response s a n1 n2 x' ->
  forall n, node_in s n -> x n = x' n.
Proof.
  intros s D a n1 n2 x x' F (X0 & X) (X0' & X') n Hn. unfold node_in in Hn. destruct (Z.eq_dec n 0) as [->|N]; [congruence|].
  apply (factors_unique s D a x x' F); [|lia]. intros r Hr. now rewrite X, X'.
Qed.
Lemma zapit_row : forall n1 n2 r, (1 <= r)%Z -> n1 <> n2 -> zapit K n1 n2 r = dlt r n1 -' dlt r n2.
Proof.
  intros n1 n2 r Hr N. unfold zapit, delta.
  destruct (Z.eqb_spec n1 0), (Z.eqb_spec n2 0), (Z.eqb_spec r n1), (Z.eqb_spec r n2); try lia; ring.
Qed.
Lemma zapit_0 : forall n1 n2, zapit K n1 n2 0%Z = 0.
Proof.
  intros n1 n2. unfold zapit. destruct (Z.eqb_spec n1 0), (Z.eqb_spec n2 0), (Z.eqb_spec 0 n1), (Z.eqb_spec 0 n2); try lia; reflexivity.
Qed.
(* the substitution succeeds; the port voltage is that of the response *)
Lemma port_raw : forall s D a n1 n2, factors s D a -> node_in s n1 -> node_in s n2 ->
  exists x raw, response s a n1 n2 x /\ raw = x n1 -' x n2 /\
    forall y, port_impedance K D n1 n2 y = if fz K y then Some raw else let* g := recip K raw in recip K (g -' y).
Proof.
  intros s D a n1 n2 F H1 H2. pose proof F as (W & Dg & Sz & HL). destruct (Z.eq_dec n1 n2) as [<-|N].
  - exists (fun _ => 0), 0. split; [|split; [ring|]].
    + split; [reflexivity|]. intros r Hr. transitivity (tot K s (fun c => 0 *' a r c)); [apply tot_ext; intros; ring|]. rewrite tot_scale. ring.
    + intros y. unfold port_impedance. destruct (fbsub1_solves K D (zapit K n1 n1) W Dg) as (x & Ex & _). rewrite Ex. cbn [bind].
      replace (x n1 -' x n1) with 0 by ring. reflexivity.
  - destruct (fbsub1_solves K D (zapit K n1 n2) W Dg) as (x & Ex & X0 & Sol). rewrite Sz in Sol.
    exists x, (x n1 -' x n2). split; [|split; [reflexivity|]].
    + split; [rewrite X0; apply zapit_0|]. intros r Hr. rewrite <- (zapit_row n1 n2 r) by (lia || assumption). rewrite <- (Sol r Hr).
      unfold tot. apply fsum_ext. intros c Hc. now rewrite HL by lia.
    + intros y. unfold port_impedance. rewrite Ex. reflexivity.
Qed.
Lemma tot_across : forall s x n1 n2 r, x 0%Z = 0 -> node_in s n1 -> node_in s n2 ->
  tot K s (fun c => across n1 n2 r c *' x c) = (dlt r n1 -' dlt r n2) *' (x n1 -' x n2).
Proof.
  intros s x n1 n2 r X0 H1 H2. unfold across.
  transitivity (tot K s (fun c => (dlt r n1 -' dlt r n2) *' (dlt c n1 *' x c -' dlt c n2 *' x c))). { apply tot_ext. intros. ring. }
  rewrite tot_scale, tot_sub, !tot_delta by assumption. reflexivity.
Qed.
Lemma mul_nz : forall a b, a *' b <> 0 -> a <> 0 /\ b <> 0.
Proof. intros a b H. split; intros ->; apply H; ring. Qed.
(* adding the admittance y across the port *)
Lemma tot_with : forall s a a' y n1 n2 x r, x 0%Z = 0 -> node_in s n1 -> node_in s n2 -> (1 <= r <= s)%Z ->
  (forall r c, (1 <= r <= s)%Z -> (1 <= c <= s)%Z -> a r c = a' r c +' y *' across n1 n2 r c) ->
  tot K s (fun c => a r c *' x c) = tot K s (fun c => a' r c *' x c) +' y *' (x n1 -' x n2) *' (dlt r n1 -' dlt r n2).
Proof.
  intros s a a' y n1 n2 x r X0 H1 H2 Hr E.
  transitivity (tot K s (fun c => a' r c *' x c) +' y *' tot K s (fun c => across n1 n2 r c *' x c)).
  - rewrite <- tot_scale, <- tot_add. unfold tot. apply fsum_ext. intros c Hc. rewrite E by lia. ring.
  - rewrite tot_across by assumption. ring.
Qed.
Lemma port_without : forall s D a a' y n1 n2, factors s D a -> node_in s n1 -> node_in s n2 ->
  (forall r c, (1 <= r <= s)%Z -> (1 <= c <= s)%Z -> a r c = a' r c +' y *' across n1 n2 r c) ->
  (forall z, port_impedance K D n1 n2 y = Some z -> exists x', response s a' n1 n2 x' /\ x' n1 -' x' n2 = z) /\
  forall x', response s a' n1 n2 x' -> (x' n1 -' x' n2 <> 0 \/ y = 0) -> port_impedance K D n1 n2 y = Some (x' n1 -' x' n2).
Proof.
  intros s D a a' y n1 n2 F H1 H2 E. destruct (port_raw s D a n1 n2 F H1 H2) as (x & raw & (X0 & X) & Hraw & HP). rewrite HP. split.
  - intros z. destruct (fz K y) eqn:Ey.
    + intros Hz. injection Hz as <-. apply fz_true in Ey. exists x. split; [|now rewrite Hraw]. split; [assumption|]. intros r Hr.
      rewrite <- (X r Hr), (tot_with s a a' y n1 n2 x r X0 H1 H2 Hr E), Ey. ring.
    + unfold recip. destruct (fz K raw) eqn:Er; [discriminate|]. cbn [bind]. destruct (fz K (1 /' raw -' y)) eqn:Eg; [discriminate|].
      intros Hz. injection Hz as <-. apply fz_false in Er. apply fz_false in Eg. set (g := 1 /' raw -' y) in *.
      exists (fun n => x n *' (1 /' g /' raw)). split.
      * split; [rewrite X0; ring|]. intros r Hr.
        assert (G : tot K s (fun c => a' r c *' x c) = (dlt r n1 -' dlt r n2) *' (1 -' y *' raw)).
        { pose proof (tot_with s a a' y n1 n2 x r X0 H1 H2 Hr E) as W. rewrite (X r Hr), <- Hraw in W.
          set (t := tot K s (fun c => a' r c *' x c)) in *. clearbody t.
          transitivity (t +' y *' raw *' (dlt r n1 -' dlt r n2) -' y *' raw *' (dlt r n1 -' dlt r n2)); [ring|]. rewrite <- W. ring. }
        transitivity (1 /' g /' raw *' tot K s (fun c => a' r c *' x c)). { rewrite <- tot_scale. apply tot_ext. intros. ring. }
        rewrite G. assert (Eq : 1 -' y *' raw = g *' raw). { unfold g. field. assumption. } rewrite Eq. field. split; assumption.
      * transitivity (raw *' (1 /' g /' raw)); [rewrite Hraw; ring|]. field. split; assumption.
  - intros x' (X0' & X') Hor. set (z' := x' n1 -' x' n2) in *.
    (* the response of the whole, scaled *)
    assert (Sc : forall n, node_in s n -> x' n = (1 +' y *' z') *' x n).
    { intros n Hn. unfold node_in in Hn. destruct (Z.eq_dec n 0) as [->|Nn]; [rewrite X0, X0'; ring|].
      apply (factors_unique s D a x' (fun c => (1 +' y *' z') *' x c) F); [|lia]. intros r Hr.
      rewrite (tot_with s a a' y n1 n2 x' r X0' H1 H2 Hr E), (X' r Hr). fold z'.
      transitivity ((1 +' y *' z') *' tot K s (fun c => a r c *' x c)); [rewrite (X r Hr); ring|].
      rewrite <- tot_scale. apply tot_ext. intros. ring. }
    assert (Ez : z' = (1 +' y *' z') *' raw). { unfold z' at 1. rewrite (Sc n1 H1), (Sc n2 H2), Hraw. ring. }
    destruct (fz K y) eqn:Ey.
    + apply fz_true in Ey. f_equal. rewrite Ez, Ey. ring.
    + apply fz_false in Ey. destruct Hor as [Nz|]; [|contradiction].
      assert (N2 : (1 +' y *' z') *' raw <> 0) by (rewrite <- Ez; exact Nz). apply mul_nz in N2. destruct N2 as (Ns & Nr).
      unfold recip. rewrite (fz_ne raw Nr). cbn [bind].
      assert (Eg : 1 /' raw -' y = 1 /' z').
      { assert (Er : raw = z' /' (1 +' y *' z')). { transitivity ((1 +' y *' z') *' raw /' (1 +' y *' z')); [field; assumption|now rewrite <- Ez]. } rewrite Er. field. split; assumption. }
      rewrite Eg. rewrite fz_ne.
      * f_equal. field. split; [assumption|exact (F_1_neq_0 (fth K))].
      * intros Z1. apply (f_equal (fun u => u *' z')) in Z1. assert (1 /' z' *' z' = 1) by (field; assumption). rewrite H in Z1.
        apply (F_1_neq_0 (fth K)). rewrite Z1. ring.
Qed.

(* ---- the elements that load a conductance between their own nodes, and nothing else ---- *)
Definition two_pole (e : element K) : bool :=
  match e with
  | ER _ _ _ _ _ | EY _ _ _ _ _ | EC _ _ _ _ _ _ _ | EVCC _ _ _ _ _ _ _ _ _ _ | EL _ _ _ _ _ _ _ | EV _ _ _ _ | EI _ _ _ _ => true
  | _ => false
  end.
Definition load_m (l : list (place * T)) (r c : Z) : T := lsum K (map (fun pv => snd pv *' mstamp K (fst pv) r c) l).

Section Tr.
Variable short : T.
Variable leb : T -> T -> bool.
Lemma own_tr : forall e s l r c, two_pole e = true -> eval K short leb e = Some s -> slots K short leb e = Some l ->
  load_m l r c = (cc1 K (e_m K s) +' e_loss K s) *' across (fst (outs K e)) (snd (outs K e)) r c.
Proof.
  intros e s l r c Tp E El. unfold slots in El. rewrite E in El. cbn [bind] in El.
  destruct e; cbn [two_pole] in Tp; try discriminate Tp; cbn [outs ins fst snd] in *; injection El as <-;
    unfold load_m, across; cbn [map fst snd mstamp]; rewrite ?(lsum_cons' K); change (lsum K []) with 0;
    cbn [eval] in E; try (destruct (differentiate K leb h p _) as [i0|]; [cbn [bind] in E|discriminate E]);
    injection E as <-; cbn [e_loss e_m cc1]; ring.
Qed.
Lemma dev_own : forall d e s r c, carries K short leb d e -> two_pole e = true -> eval K short leb e = Some s ->
  dev_m K d r c = d_m A d *' (cc1 K (e_m K s) +' e_loss K s) *' across (fst (outs K e)) (snd (outs K e)) r c.
Proof.
  intros d e s r c C Tp E. unfold carries in C. pose proof (own_tr e s _ r c Tp E C) as H. unfold dev_m, slots_m.
  transitivity (d_m A d *' ((cc1 K (e_m K s) +' e_loss K s) *' across (fst (outs K e)) (snd (outs K e)) r c)); [|ring]. rewrite <- H.
  unfold load_m. rewrite map_map. cbn [fst snd]. clear C H. generalize (d_slots A d). intros l. induction l as [|sl l IH].
  - cbn [map]. change (lsum K []) with 0. ring.
  - cbn [map]. rewrite !(lsum_cons' K), IH. ring.
Qed.
Lemma devs_split : forall d1 d d2 r c, devs_m K (d1 ++ d :: d2) r c = devs_m K (d1 ++ d2) r c +' dev_m K d r c.
Proof.
  intros. unfold devs_m. rewrite !map_app, !lsum_app. cbn [map]. rewrite (lsum_cons' K). ring.
Qed.
End Tr.

Section Ac.
Variable short : T.
Variable leb : T -> T -> bool.
Variable small : T -> bool.
Variable jw : T.
Variable op : bool.
Definition adm_ac (x : ael K) (v : acv K) : T := if is_source K (ae K x) then v_loss K v else v_acg K v +' v_loss K v.
Definition lossless (e : element K) : bool := match e with EV _ _ _ _ => false | _ => true end.
Lemma loss_zero : forall e s, two_pole e = true -> lossless e = true -> eval K short leb e = Some s -> e_loss K s = 0.
Proof.
  intros e s Tp Sr E. destruct e; cbn [two_pole lossless is_source] in *; try discriminate; cbn [eval] in E;
    try (destruct (differentiate K leb h p _) as [i0|]; [cbn [bind] in E|discriminate E]); injection E as <-; reflexivity.
Qed.
Lemma own_ac : forall x p l1 l2 r c, two_pole (ae K x) = true -> ac_state K short leb small jw op x = Some p ->
  do_slots K short leb small jw op x = Some l1 -> load_slots_ac K short leb small jw op x = Some l2 ->
  load_m l1 r c +' load_m l2 r c = adm_ac x (fst p) *' across (fst (outs K (ae K x))) (snd (outs K (ae K x))) r c.
Proof.
  intros [e st sin] p l1 l2 r c Tp E E1 E2. unfold do_slots, load_slots_ac in *. rewrite E in E1, E2. cbn [bind ae] in *.
  assert (LZ : lossless e = true -> v_loss K (fst p) = 0).
  { intros Sr. unfold ac_state in E. cbn [ae a_set] in E. destruct (ac_begin K short leb op e) as [b|] eqn:Eb; [|discriminate E]. cbn [bind] in E.
    assert (BL : b_loss K b = 0).
    { unfold ac_begin in Eb. destruct op.
      - destruct (eval K short leb e) as [s|] eqn:Es; [|discriminate Eb]. cbn [bind] in Eb. pose proof (loss_zero e s Tp Sr Es) as L.
        destruct e; cbn [two_pole lossless is_source] in *; try discriminate; injection Eb as <-; cbn; (assumption || reflexivity).
      - cbn [bind] in Eb. destruct e; cbn [two_pole lossless is_source] in *; try discriminate; injection Eb as <-; reflexivity. }
    assert (G : forall v, do_ac1 K short small jw e st b = Some v -> v_loss K v = 0).
    { intros vv Ev. unfold do_ac1 in Ev. destruct e; cbn [two_pole lossless is_source] in *; try discriminate;
        repeat match type of Ev with (if ?c then _ else _) = Some _ => destruct c; [|] end; try discriminate; injection Ev as <-; exact BL. }
    destruct e; cbn [two_pole lossless is_source] in *; try discriminate;
      (destruct (do_ac1 K short small jw _ st b) as [vv|] eqn:Ev; [|discriminate E]); cbn [bind] in E; injection E as <-; cbn [fst]; now apply G. }
  unfold adm_ac. cbn [ae].
  destruct e; cbn [two_pole lossless is_source] in *; try discriminate; cbn [outs ins fst snd] in *; injection E1 as <-; injection E2 as <-;
    unfold load_m, across; cbn [map fst snd mstamp]; rewrite ?(lsum_cons' K); change (lsum K []) with 0; rewrite ?(LZ eq_refl); try ring.
Qed.

Lemma all_slots_split : forall (f : ael K -> option (list (place * T))) xs1 m x xs2 l, all_slots K f (xs1 ++ (m, x) :: xs2) = Some l ->
  exists lx k, f x = Some lx /\ all_slots K f (xs1 ++ xs2) = Some k /\ forall r c, load_m l r c = load_m k r c +' m *' load_m lx r c.
Proof.
  intros f xs1 m x xs2. assert (Ap : forall a b r c, load_m (a ++ b) r c = load_m a r c +' load_m b r c).
  { intros. unfold load_m. rewrite map_app. apply lsum_app. }
  assert (Sc : forall q a r c, load_m (map (fun pv => (fst pv, q *' snd pv)) a) r c = q *' load_m a r c).
  { intros q a r c. unfold load_m. induction a as [|pv a IH]; cbn [map fst snd]; [change (lsum K []) with 0; ring|]. rewrite !(lsum_cons' K), IH. ring. }
  induction xs1 as [|[m1 x1] xs1 IH]; intros l E; cbn [app all_slots] in *.
  - destruct (f x) as [lx|]; [|discriminate E]. cbn [bind] in E. destruct (all_slots K f xs2) as [k|]; [|discriminate E]. cbn [bind] in E. injection E as <-.
    exists lx, k. split; [reflexivity|]. split; [reflexivity|]. intros r c. rewrite Ap, Sc. ring.
  - destruct (f x1) as [l1|]; [|discriminate E]. cbn [bind] in E. destruct (all_slots K f (xs1 ++ (m, x) :: xs2)) as [l'|]; [|discriminate E]. cbn [bind] in E. injection E as <-.
    destruct (IH l' eq_refl) as (lx & k & E1 & E2 & H). exists lx, (map (fun pv => (fst pv, m1 *' snd pv)) l1 ++ k). split; [assumption|]. rewrite E2. cbn [bind]. split; [reflexivity|].
    intros r c. rewrite !Ap, H. ring.
Qed.
Lemma load_app : forall a b r c, load_m (a ++ b) r c = load_m a r c +' load_m b r c.
Proof. intros. unfold load_m. rewrite map_app. apply lsum_app. Qed.
End Ac.

(* what is left in _acx after one frequency are the factors of the matrix of the stamps *)
Section Freq.
Variable D0 : data A.
Variable mp : T.
Lemma ac_solve_lu : forall (l1 l2 : list (place * T)) M D x, Sys A D0 mp M -> mp <> 0 -> (forall p v, In (p, v) (l1 ++ l2) -> place_ok A D0 p) ->
  ac_solve A l1 l2 M = Some (D, x) ->
  exists z, (forall r, (1 <= r <= size D0)%Z -> (z r = true <-> coef K (l1 ++ l2) r r =
        fsum K 1 r (fun k => lower K (dense K D) r k *' upper1 K (dense K D) k r))) /\
    factors (size D0) D (fun r c => coef K (l1 ++ l2) r c +' (if (r =? c)%Z then (if z r then mp else 0) else 0)).
Proof.
  intros l1 l2 M D x HS Hmp Hl. unfold ac_solve.
  set (M0 := mkmat (zero A (aa M)) (lu M) (changed M) (min_pivot M)).
  assert (S0 : Sys A D0 mp M0).
  { destruct HS as ((Hw & Sh) & Sh0 & Em). split; [split; [exact Hw|exact Sh]|]. split; [exact Sh0|exact Em]. }
  assert (E0 : forall r c, (1 <= r <= size D0)%Z -> (1 <= c <= size D0)%Z -> ext (aa M0) r c = 0).
  { intros r c Hr Hc. destruct S0 as ((Hw & _) & _). destruct (env_b (aa M0) r c) eqn:B.
    - apply env_b_spec in B. rewrite ext_env by assumption. reflexivity.
    - rewrite ext_out; [reflexivity|]. intros X. apply env_b_spec in X. congruence. }
  destruct (ac_puts K D0 mp l1 M0 (fun _ => 0) S0 (fun p v H => Hl p v (in_or_app _ _ _ (or_introl H)))) as (M1 & r1 & F1 & S1 & Q1 & V1).
  destruct (ac_puts K D0 mp l2 M1 r1 S1 (fun p v H => Hl p v (in_or_app _ _ _ (or_intror H)))) as (M2 & r2 & F2 & S2 & Q2 & V2).
  change (n0 A) with 0. rewrite F1. cbn [bind]. rewrite F2. cbn [bind fst snd].
  assert (Em : min_pivot M2 = mp) by (destruct S2 as (_ & _ & E); exact E). rewrite Em.
  assert (Wf2 : wf (aa M2)) by (destruct S2 as ((W & _) & _); exact W).
  assert (Sz2 : size (aa M2) = size D0) by (destruct S2 as (_ & (E & _) & _); exact E).
  destruct (ip_lu_spec A (fun a w => eq_refl) mp (aa M2) Wf2) as (D' & ED & ShD & Rec).
  rewrite ED. cbn [bind]. destruct (fbsub1 A D' r2) as [x'|]; [|discriminate]. cbn [bind]. intros E. injection E as -> _.
  assert (WD : wf D) by (apply (shape_wf A _ _ ShD); exact Wf2).
  assert (SzD : size D = size D0) by (destruct ShD; congruence).
  assert (ShD' : shape D (aa M2)) by (destruct ShD; split; congruence).
  pose proof (rec_diag_ok K _ _ _ WD Hmp Rec) as Dg.
  destruct (pivots K (aa M2) mp D WD ShD' Hmp Rec) as (z & Hz & HZ). rewrite SzD in *.
  assert (C : forall r c, (1 <= r <= size D0)%Z -> (1 <= c <= size D0)%Z -> dense K (aa M2) r c = coef K (l1 ++ l2) r c).
  { intros r c Hr Hc. rewrite (dense_ext K) by (assumption || lia). rewrite (proj2 (V2 r Hr) c Hc), (proj2 (V1 r Hr) c Hc), E0 by assumption.
    rewrite coef_app. ring. }
  exists z. split.
  - intros r Hr. rewrite (Hz r Hr). unfold zero_pivot. rewrite C by assumption. reflexivity.
  - split; [assumption|]. split; [assumption|]. split; [assumption|]. intros r c Hr Hc. rewrite HZ by lia. unfold Matrix_Main.solved. rewrite C by lia.
    destruct (r =? c)%Z; cbn [andb]; [destruct (z r)|]; reflexivity.
Qed.
End Freq.

(* ---- power ---- *)
Section Pow.
Variable short : T.
Variable leb : T -> T -> bool.
Definition coupling (e : element K) : bool := match e with EK _ _ _ _ _ _ _ _ _ _ => true | _ => false end.
(* winding tells the rows that stand for the current of an inductor from those of the nodes *)
Definition rows_ok (winding : Z -> bool) (e : element K) : Prop :=
  match e with
  | EK _ n1 n2 _ _ _ _ _ _ _ => winding n1 = true /\ winding n2 = true
  | ELc _ o1 o2 i1 _ _ _ _ => winding i1 = true /\ winding o1 = false /\ winding o2 = false
  | _ => winding (fst (outs K e)) = false /\ winding (snd (outs K e)) = false
  end.
Lemma outs_in : forall s e l, coupling e = false -> nodes_in K short leb s e -> slots K short leb e = Some l ->
  node_in s (fst (outs K e)) /\ node_in s (snd (outs K e)).
Proof.
  intros s e l Cp N E. pose proof (N l) as H. specialize (fun p v => H p v E).
  unfold slots in E. destruct (eval K short leb e) as [st|]; [|discriminate E]. cbn [bind] in E.
  destruct e; cbn [coupling] in Cp; try discriminate Cp; cbn [outs fst snd] in *;
    try (destruct (ins K _) as [j1 j2]); cbn [app] in E; injection E as <-; pose proof (H _ _ (or_introl eq_refl)) as P; cbn [place_in] in P; tauto.
Qed.
Lemma leaves_power : forall winding s e i x, x 0%Z = 0 -> rows_ok winding e -> (coupling e = false -> node_in s (fst (outs K e)) /\ node_in s (snd (outs K e))) ->
  tot K s (fun r => if winding r then 0 else x r *' leaves K e i x r) = if coupling e then 0 else i *' dv K x (outs K e).
Proof.
  intros winding s e i x X0 R N.
  assert (G : forall o1 o2 f, winding o1 = false -> winding o2 = false -> node_in s o1 -> node_in s o2 ->
    (forall r, winding r = false -> f r = (dlt r o1 -' dlt r o2) *' i) ->
    tot K s (fun r => if winding r then 0 else x r *' f r) = i *' (x o1 -' x o2)).
  { intros o1 o2 f W1 W2 N1 N2 Hf. transitivity (tot K s (fun r => i *' (dlt r o1 *' x r -' dlt r o2 *' x r))).
    - apply tot_ext. intros r. destruct (winding r) eqn:Wr; [|rewrite (Hf r Wr); ring].
      unfold delta. destruct (Z.eqb_spec r o1); [congruence|]. destruct (Z.eqb_spec r o2); [congruence|]. ring.
    - rewrite tot_scale, tot_sub, !tot_delta by assumption. reflexivity. }
  unfold dv. destruct e; cbn [coupling rows_ok outs fst snd] in *;
    try (destruct (N eq_refl) as (N1 & N2); destruct R as (W1 & W2); now apply G).
  - destruct (N eq_refl) as (N1 & N2). destruct R as (W0 & W1 & W2). apply G; try assumption. intros r Wr. unfold leaves.
    assert (E : dlt r i1 = 0). { unfold delta. destruct (Z.eqb_spec r i1); [congruence|reflexivity]. } rewrite E. ring.
  - destruct R as (W1 & W2). transitivity (tot K s (fun _ => 0 *' 0)); [|rewrite tot_scale; ring]. apply tot_ext. intros r.
    destruct (winding r) eqn:Wr; [ring|]. unfold leaves.
    assert (E1 : dlt r n1 = 0). { unfold delta. destruct (Z.eqb_spec r n1); [congruence|reflexivity]. }
    assert (E2 : dlt r n2 = 0). { unfold delta. destruct (Z.eqb_spec r n2); [congruence|reflexivity]. } rewrite E1, E2. ring.
Qed.
Lemma power_sum : forall winding s x (qs : list (dev A * (element K * T))), x 0%Z = 0 ->
  (forall d e i, In (d, (e, i)) qs -> rows_ok winding e /\ (coupling e = false -> node_in s (fst (outs K e)) /\ node_in s (snd (outs K e)))) ->
  tot K s (fun r => if winding r then 0 else x r *' sum_leaves K qs x r) =
  lsum K (map (fun q => d_m A (fst q) *' (if coupling (fst (snd q)) then 0 else snd (snd q) *' dv K x (outs K (fst (snd q))))) qs).
Proof.
  intros winding s x qs X0. induction qs as [|[d [e i]] qs IH]; intros H.
  - cbn [map]. change (lsum K []) with 0. transitivity (tot K s (fun _ => 0 *' 0)); [|rewrite tot_scale; ring]. apply tot_ext. intros r. unfold sum_leaves. cbn [map].
    change (lsum K []) with 0. destruct (winding r); ring.
  - cbn [map fst snd]. rewrite (lsum_cons' K), <- IH by (intros d' e' i' Hi; apply (H d' e' i'); now right).
    destruct (H d e i (or_introl eq_refl)) as (R & N). rewrite <- (leaves_power winding s e i x X0 R N), <- tot_scale, <- tot_add.
    apply tot_ext. intros r. unfold sum_leaves. cbn [map fst snd]. rewrite (lsum_cons' K). destruct (winding r); ring.
Qed.
Lemma balance : forall winding s x (u : Z -> T) (qs : list (dev A * (element K * T))), x 0%Z = 0 ->
  (forall d e i, In (d, (e, i)) qs -> rows_ok winding e /\ (coupling e = false -> node_in s (fst (outs K e)) /\ node_in s (snd (outs K e)))) ->
  (forall r, (1 <= r <= s)%Z -> u r *' x r +' sum_leaves K qs x r = 0) ->
  tot K s (fun r => if winding r then 0 else u r *' (x r *' x r)) +'
  lsum K (map (fun q => d_m A (fst q) *' (if coupling (fst (snd q)) then 0 else snd (snd q) *' dv K x (outs K (fst (snd q))))) qs) = 0.
Proof.
  intros winding s x u qs X0 H Hk. rewrite <- (power_sum winding s x qs X0 H), <- tot_add.
  unfold tot. apply fsum_zero. intros r Hr. destruct (winding r); [ring|].
  transitivity (x r *' (u r *' x r +' sum_leaves K qs x r)); [ring|]. rewrite Hk by lia. ring.
Qed.
End Pow.
End S.
