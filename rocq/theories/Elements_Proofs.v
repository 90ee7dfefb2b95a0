(* What the stamps of an element mean for a solution of the circuit equations, in any exact field. *)
Require Import ZArith List Bool Lia Field.
Require Import Verif.Loops Verif.FieldSums Verif.Matrix_Model Verif.Matrix_Exact Verif.Matrix_Spec Verif.Solver_Model
  Verif.Solver_Content Verif.Storage_Model Verif.Elements_Model.
Import ListNotations.

Section S.
Variable K : fld.
Add Field Kel : (fth K).
Notation T := (F K).
Notation "0" := (f0 K). Notation "1" := (f1 K).
Notation "a +' b" := (fadd K a b) (at level 50, left associativity).
Notation "a -' b" := (fsub K a b) (at level 50, left associativity).
Notation "a *' b" := (fmul K a b) (at level 40, left associativity).
Notation "a /' b" := (fdiv K a b) (at level 40, left associativity).
Notation "-' a" := (fopp K a) (at level 35, right associativity).
Notation dlt := (delta K).

(* ---- the specification ---- *)
(* the finite-difference estimate of the time derivative of a quantity whose value is q now, q1 and
   q2 at the two previous times and whose derivative was i1 at the previous one *)
Definition rate (h : hist K) (p : past K) (q : T) : T :=
  let q1 := pf0 K (p_q1 K p) in let q2 := pf0 K (p_q2 K p) in let i1 := pf0 K (p_i1 K p) in
  let dt := h_t0 K h -' h_t1 K h in let dt1 := h_t1 K h -' h_t2 K h in
  match h_ph K h with
  | Static => 0
  | Restore => pf0 K (p_i0 K p)
  | Dynamic =>
      if fz K dt1 then (q -' q1) /' dt else
      match h_m K h with
      | mEULER | mTRAPEULER => (q -' q1) /' dt
      | mTRAP => (1 +' 1) *' ((q -' q1) /' dt) -' i1
      | mGEAR | mTRAPGEAR => (1 +' 1 +' 1) /' (1 +' 1) *' ((q -' q1) /' dt) -' 1 /' (1 +' 1) *' ((q1 -' q2) /' dt1)
      end
  end.
(* the value of a behaviour b at u, expanded to first order at the point a of its evaluation *)
Definition lin_at (b : beh K) (a u : T) : T :=
  match b with Lin _ k => k *' u | Fun _ f => fst (f a) +' snd (f a) *' (u -' a) end.
(* the derivative of that; when a run is resumed, the derivative found last, to first order *)
Definition sto (h : hist K) (p : past K) (b : beh K) (a u : T) : T :=
  match h_ph K h with
  | Restore => pf0 K (p_i0 K p) +' pf1 K (p_i0 K p) *' (u -' px K (p_i0 K p))
  | _ => rate h p (lin_at b a u)
  end.

Section El.
Variable short : T.
Variable leb : T -> T -> bool.
(* what is used of the order and of the numbers 2 and 3 *)
Definition order_ok : Prop := leb 0 0 = true /\ leb short 0 = false /\ leb 0 (-' short) = false /\
  1 +' 1 <> 0 /\ 1 +' 1 +' 1 <> 0.

(* the law of each element: x the voltages, i the current into its first terminal (the current of
   the inductor for ELc) *)
Fixpoint law (e : element K) (x : Z -> T) (i : T) : Prop :=
  let v n1 n2 := x n1 -' x n2 in
  match e with
  | ER _ o1 o2 (Lin _ r) _ => v o1 o2 = (if ltb K leb (abs K leb r) short then short else r) *' i
  | ER _ o1 o2 (Fun _ f) a => exists y0 y1, v o1 o2 = y0 +' y1 *' (i -' a) /\
      (leb short (snd (f a)) = true \/ leb (snd (f a)) (-' short) = true -> y0 = fst (f a) /\ y1 = snd (f a)) /\
      (leb short (snd (f a)) = false -> leb (snd (f a)) (-' short) = false ->
        y1 = (if leb 0 (snd (f a)) then short else -' short) /\ (y0 = fst (f a) \/ y0 = a *' y1))
  | EY _ o1 o2 b a => i = lin_at b a (v o1 o2)
  | EG _ _ _ i1 i2 b a => i = lin_at b a (v i1 i2)
  | EV _ o1 o2 val => v o1 o2 = val +' short *' i
  | EI _ _ _ val => i = val
  | EE _ o1 o2 i1 i2 b a => v o1 o2 = lin_at b a (v i1 i2) +' short *' i
  | EF _ _ _ inp b a => exists j, tr_amps K short leb inp x = Some j /\ law inp x j /\ i = lin_at b a j
  | EH _ o1 o2 inp b a => exists j, tr_amps K short leb inp x = Some j /\ law inp x j /\ v o1 o2 = lin_at b a j +' short *' i
  | EVCG _ o1 o2 i1 i2 f a w => i = fst (f a) *' v o1 o2 +' snd (f a) *' w *' (v i1 i2 -' a)
  | EVCR _ o1 o2 i1 i2 f a w =>
      exists r, r = (if fz K (fst (f a)) then short else fst (f a)) /\
      v o1 o2 = r *' i +' snd (f a) /' r *' w *' (v i1 i2 -' a)
  | EC _ o1 o2 b a h p => i = sto h p b a (v o1 o2)
  | ETC _ _ _ i1 i2 b a h p => i = sto h p b a (v i1 i2)
  | EVCC _ o1 o2 _ _ f a _ h p => i = sto h p (Lin K (fst (f a))) 0 (v o1 o2)
  | EL _ o1 o2 b a h p =>
      let slope := match b with Lin _ k => k | Fun _ f => if fz K (snd (f a)) then short else snd (f a) end in
      let flux := match b with Lin _ k => k *' i | Fun _ f => fst (f a) +' slope *' (i -' a) end in
      match h_ph K h with
      | Static => v o1 o2 = short *' i
      | Restore => let i0 := p_i0 K p in
          v o1 o2 = (if fz K (pf1 K i0) then pf0 K i0 +' short *' i else pf0 K i0 +' pf1 K i0 *' (i -' px K i0))
      | Dynamic => v o1 o2 = (if fz K slope then rate h p flux +' short *' i else rate h p flux)
      end
  | ELc _ _ _ i1 _ _ _ _ => i = x i1
  | EK _ _ _ _ _ _ _ _ _ _ => True
  | EP _ o1 o2 v0 v1 ports => i = v0 +' v1 *' v o1 o2 +' lsum K (map (fun q => snd q *' v (fst (fst q)) (snd (fst q))) ports)
  end.

(* the current into the first output terminal, as stamped *)
Definition cur (e : element K) (s : est K) (x : Z -> T) : T :=
  let m := e_m K s in
  match e with
  | EV _ _ _ _ | EI _ _ _ _ => e_loss K s *' dv K x (outs K e) +' cc0 K m
  | EVCC _ _ _ _ _ _ _ _ _ _ => cc1 K m *' dv K x (outs K e) +' cc0 K m
  | ELc _ _ _ i1 _ _ _ _ => x i1
  | EK _ _ _ _ _ _ _ _ _ _ => 0
  | EP _ _ _ v0 v1 ports => v0 +' v1 *' dv K x (outs K e) +' lsum K (map (fun q => snd q *' dv K x (fst q)) ports)
  | _ => e_loss K s *' dv K x (outs K e) +' cc1 K m *' dv K x (ins K e) +' cc0 K m
  end.

Hypothesis OK : order_ok.
Lemma short_nz : short <> 0.
Proof. destruct OK as (A & B & _). intros E. rewrite E in B. congruence. Qed.
Lemma ltb_nz : forall d, ltb K leb 0 d = true -> d <> 0.
Proof. intros d H E. destruct OK as (A & _). unfold ltb in H. rewrite E, A in H. discriminate. Qed.
Lemma opp_nz : -' short <> 0.
Proof. intros E. apply short_nz. apply (f_equal (fopp K)) in E. transitivity (-' (-' short)); [ring|]. rewrite E. ring. Qed.
Lemma res_value_nz : forall v, res_value K short leb v <> 0.
Proof.
  intros v. unfold res_value. destruct (ltb K leb (abs K leb v) short) eqn:E; [apply short_nz|].
  intros Z. rewrite Z in E. unfold abs in E. destruct OK as (A & B & _). rewrite A in E. unfold ltb in E. rewrite B in E. discriminate.
Qed.
Lemma fz_nz : forall v, fz K v = false -> v <> 0.
Proof. intros v H E. apply fz_ok in E. congruence. Qed.
Lemma inv_cancel : forall a, a <> 0 -> a *' finv K a = 1.
Proof. intros a H. field. assumption. Qed.
Lemma div_def : forall a b, a /' b = a *' finv K b.
Proof. intros. apply (Fdiv_def (fth K)). Qed.

(* the derivative as a line in the input *)
Lemma diff_line : forall h p y i0 u, differentiate K leb h p y = Some i0 ->
  pf0 K i0 +' pf1 K i0 *' (u -' px K i0) =
  match h_ph K h with
  | Restore => pf0 K (p_i0 K p) +' pf1 K (p_i0 K p) *' (u -' px K (p_i0 K p))
  | _ => rate h p (pf0 K y +' pf1 K y *' (u -' px K y))
  end.
Proof.
  intros h p y i0 u E. unfold differentiate in E. unfold rate. destruct (h_ph K h).
  - destruct (fz K (h_t0 K h)); [|discriminate]. injection E as <-. cbn. ring.
  - destruct (ltb K leb 0 (h_t0 K h)); [|discriminate]. injection E as <-. reflexivity.
  - destruct (ltb K leb 0 (h_t0 K h -' h_t1 K h)) eqn:Ed; [|discriminate]. injection E as <-.
    destruct (fz K (h_t1 K h -' h_t2 K h)) eqn:Ez; [cbn; rewrite !div_def; ring|].
    destruct (h_m K h); cbn; unfold k32, k12, two; rewrite !div_def; ring.
Qed.
Lemma fc0_line : forall (y : fpoly K) u, fc0 K y +' pf1 K y *' u = pf0 K y +' pf1 K y *' (u -' px K y).
Proof. intros. unfold fc0. ring. Qed.
Lemma y_line : forall b a u, pf0 K (y_of K b a) +' pf1 K (y_of K b a) *' (u -' px K (y_of K b a)) = lin_at b a u.
Proof. intros [k|f] a u; cbn; ring. Qed.
Lemma sto_line : forall h p b a i0 u, differentiate K leb h p (y_of K b a) = Some i0 -> fc0 K i0 +' pf1 K i0 *' u = sto h p b a u.
Proof.
  intros h p b a i0 u E. rewrite fc0_line, (diff_line _ _ _ _ _ E). unfold sto. rewrite y_line. reflexivity.
Qed.
(* its slope *)
Lemma diff_slope : forall h p y i0, differentiate K leb h p y = Some i0 ->
  match h_ph K h with
  | Static => pf1 K i0 = 0
  | Restore => i0 = p_i0 K p
  | Dynamic => exists k, k <> 0 /\ pf1 K i0 = pf1 K y *' k
  end.
Proof.
  intros h p y i0 E. unfold differentiate in E. destruct (h_ph K h).
  - destruct (fz K (h_t0 K h)); [|discriminate]. injection E as <-. reflexivity.
  - destruct (ltb K leb 0 (h_t0 K h)); [|discriminate]. injection E as <-. reflexivity.
  - destruct (ltb K leb 0 (h_t0 K h -' h_t1 K h)) eqn:Ed; [|discriminate]. injection E as <-.
    apply ltb_nz in Ed. destruct OK as (_ & _ & _ & H2 & H3). set (dt := h_t0 K h -' h_t1 K h) in *. clearbody dt.
    assert (G1 : 1 /' dt <> 0). { intros E. apply (F_1_neq_0 (fth K)). transitivity ((1 /' dt) *' dt); [field; assumption|]. rewrite E. ring. }
    assert (G2 : (1 +' 1) /' dt <> 0). { intros E. apply H2. transitivity (((1 +' 1) /' dt) *' dt); [field; assumption|]. rewrite E. ring. }
    assert (G3 : k32 K /' dt <> 0).
    { intros E. apply H3. unfold k32, two in E. transitivity (((1 +' 1 +' 1) /' (1 +' 1) /' dt) *' dt *' (1 +' 1)); [field; split; assumption|]. rewrite E. ring. }
    destruct (fz K (h_t1 K h -' h_t2 K h)).
    + exists (1 /' dt). split; [assumption|]. cbn. rewrite !div_def. ring.
    + destruct (h_m K h).
      * exists (k32 K /' dt). split; [assumption|]. cbn. rewrite !div_def. ring.
      * exists (1 /' dt). split; [assumption|]. cbn. rewrite !div_def. ring.
      * exists ((1 +' 1) /' dt). split; [assumption|]. cbn. unfold two. rewrite !div_def. ring.
      * exists (k32 K /' dt). split; [assumption|]. cbn. rewrite !div_def. ring.
      * exists (1 /' dt). split; [assumption|]. cbn. rewrite !div_def. ring.
Qed.

(* the probe shows the current, except for DEV_VCCAP and for K, which has none *)
Definition probed (e : element K) : bool :=
  match e with EVCC _ _ _ _ _ _ _ _ _ _ | EK _ _ _ _ _ _ _ _ _ _ => false | _ => true end.
Lemma iv_probed : forall e, has_iv_probe K e = true -> probed e = true.
Proof. intros []; cbn; congruence. Qed.
Lemma fold_ports : forall x (l : list (Z * Z * T)) acc,
  fold_left (fun acc q => acc +' dv K x (fst q) *' snd q) l acc = acc +' lsum K (map (fun q => snd q *' dv K x (fst q)) l).
Proof.
  intros x. induction l as [|q l IH]; intros acc; cbn [fold_left map lsum fold_right].
  - change (acc = acc +' 0). ring.
  - rewrite IH. change (lsum K (?a :: ?l)) with (a +' lsum K l). cbn. unfold lsum. ring.
Qed.
Lemma probe_cur : forall e s x, eval K short leb e = Some s -> probed e = true -> tr_amps K short leb e x = Some (cur e s x).
Proof.
  intros e s x E P. unfold tr_amps. rewrite E. cbn [bind].
  destruct e; cbn [probed] in P; try discriminate P; try reflexivity.
  - cbn [cur]. f_equal. ring.
  - cbn [cur]. f_equal. ring.
  - cbn [cur]. f_equal. cbn [eval] in E. destruct (differentiate _ _ _ _ _); [|discriminate]. injection E as <-. cbn. ring.
  - cbn [eval] in E. injection E as <-. f_equal. rewrite fold_ports. cbn [map]. change (lsum K (?a :: ?l)) with (a +' lsum K l).
    cbn [cur fst snd e_m cc0]. ring.
Qed.

Lemma sense : forall (b : beh K) (a j : T) (inode : bool) (si : est K),
  cc0 K (cccs_m0 K b a inode si) = (match b with Lin _ _ => 0 | Fun _ f => fst (f a) -' a *' snd (f a) end)
     +' (if inode then 0 else pf1 K (y_of K b a) *' cc0 K (e_m K si)) /\
  cc1 K (cccs_m0 K b a inode si) = pf1 K (y_of K b a) *' (if inode then 1 else e_loss K si +' cc1 K (e_m K si)).
Proof. intros [k|f] a j [] si; cbn; unfold fc0; cbn; split; ring. Qed.
Lemma ins_sense : forall inp si x, has_iv_probe K inp = true -> eval K short leb inp = Some si ->
  cur inp si x = if has_inode K inp then dv K x (match inp with ELc _ _ _ i1 _ _ _ _ => (i1, 0%Z) | _ => outs K inp end) +' x 0%Z
                 else (e_loss K si +' cc1 K (e_m K si)) *' dv K x (match inp with ELc _ _ _ i1 _ _ _ _ => (i1, 0%Z) | _ => outs K inp end) +' cc0 K (e_m K si).
Proof.
  intros inp si x P E. destruct inp; cbn in P; try discriminate P; cbn [cur has_inode outs ins]; try ring.
  - cbn in E. injection E as <-. cbn. ring.
  - cbn in E. injection E as <-. cbn. ring.
  - unfold dv. cbn. ring.
Qed.
Lemma sense_lin : forall inp si b a x, has_iv_probe K inp = true -> eval K short leb inp = Some si -> x 0%Z = 0 ->
  cc1 K (cccs_m0 K b a (has_inode K inp) si) *' dv K x (match inp with ELc _ _ _ i1 _ _ _ _ => (i1, 0%Z) | _ => outs K inp end)
   +' cc0 K (cccs_m0 K b a (has_inode K inp) si) = lin_at b a (cur inp si x).
Proof.
  intros inp si b a x P E X0. rewrite (ins_sense inp si x P E), X0.
  destruct (sense b a 0 (has_inode K inp) si) as (-> & ->).
  set (v := dv K x (match inp with ELc _ _ _ i1 _ _ _ _ => (i1, 0%Z) | _ => outs K inp end)). clearbody v. destruct (has_inode K inp); destruct b as [k|f]; cbn; ring.
Qed.

Lemma law_cur : forall e s x, eval K short leb e = Some s -> x 0%Z = 0 -> law e x (cur e s x).
Proof.
  intros e s x E X0. revert s E. pose proof short_nz as SN.
  induction e as [o1 o2 b a|o1 o2 b a|o1 o2 i1 i2 b a|o1 o2 v|o1 o2 v|o1 o2 i1 i2 b a|o1 o2 inp IH b a|o1 o2 inp IH b a
    |o1 o2 i1 i2 f a w|o1 o2 i1 i2 f a w|o1 o2 b a h p|o1 o2 i1 i2 b a h p|o1 o2 i1 i2 f a w h p|o1 o2 b a h p
    |o1 o2 i1 b a h p|n1 n2 lm a1 a2 h p pf pr|o1 o2 v0 v1 ports]; intros s E; cbn [eval] in E; cbn [law].
  - injection E as <-. destruct b as [r|f]; cbn [cur outs ins e_loss e_m dv fst snd res_m0 cc0 cc1].
    + pose proof (res_value_nz r) as N. unfold res_value in *. set (r' := if ltb K leb (abs K leb r) short then short else r) in *. clearbody r'.
      unfold dv. cbn. field. assumption.
    + set (y := res_clamp K short leb (y_of K (Fun K f) a)).
      assert (N : pf1 K y <> 0 /\ px K y = a).
      { subst y. unfold res_clamp, y_of. cbn [pf1 pf0 px]. destruct OK as (_ & B & C & _).
        destruct (leb short (snd (f a))) eqn:E1; cbn [pf1 px]. { split; [|reflexivity]. intros Z. rewrite Z in E1. congruence. }
        destruct (leb (snd (f a)) (-' short)) eqn:E2; cbn [pf1 px]. { split; [|reflexivity]. intros Z. rewrite Z in E2. congruence. }
        destruct (leb 0 (snd (f a))); cbn [pf1 px]; split; try reflexivity; [exact SN|apply opp_nz]. }
      destruct N as (N & Ep). exists (pf0 K y), (pf1 K y). split; [|split].
      * unfold dv. cbn. rewrite Ep. field. assumption.
      * intros H. subst y. unfold res_clamp, y_of. cbn [pf1 pf0 px].
        destruct (leb short (snd (f a))) eqn:E1; [split; reflexivity|].
        destruct (leb (snd (f a)) (-' short)) eqn:E2; [split; reflexivity|]. destruct H; discriminate.
      * intros E1 E2. subst y. unfold res_clamp, y_of in *. cbn [pf1 pf0 px] in *. rewrite E1, E2 in *.
        destruct (leb 0 (snd (f a))); cbn [pf1 pf0]; (split; [reflexivity|]); destruct (_ && _); auto.
  - injection E as <-. unfold cur, dv. cbn. rewrite <- y_line. destruct b; cbn; unfold fc0; cbn; ring.
  - injection E as <-. unfold cur, dv. cbn. rewrite <- y_line. destruct b; cbn; unfold fc0; cbn; ring.
  - injection E as <-. unfold cur, dv. cbn. field. assumption.
  - injection E as <-. unfold cur, dv. cbn. ring.
  - injection E as <-. unfold cur, dv. cbn. destruct b; cbn; unfold fc0; cbn; field; assumption.
  - destruct (has_iv_probe K inp) eqn:P; [|discriminate]. destruct (eval K short leb inp) as [si|] eqn:Ei; [|discriminate].
    cbn [bind] in E. injection E as <-. exists (cur inp si x). split; [apply probe_cur; [assumption|now apply iv_probed]|].
    split; [now apply IH|]. rewrite <- (sense_lin inp si b a x P Ei X0). cbn [cur ins e_loss e_m]. ring.
  - rewrite andb_comm in E. destruct (negb (has_inode K inp && match b with Lin _ _ => true | Fun _ _ => false end)); [|discriminate]. cbn [andb] in E.
    destruct (has_iv_probe K inp) eqn:P; [|discriminate]. destruct (eval K short leb inp) as [si|] eqn:Ei; [|discriminate].
    cbn [bind] in E. injection E as <-. exists (cur inp si x). split; [apply probe_cur; [assumption|now apply iv_probed]|].
    split; [now apply IH|]. rewrite <- (sense_lin inp si b a x P Ei X0). cbn [cur ins e_loss e_m ccvs_m0 cscale cc0 cc1].
    unfold dv. cbn [outs fst snd]. field. assumption.
  - injection E as <-. unfold cur, dv. cbn. ring.
  - injection E as <-. exists (if fz K (fst (f a)) then short else fst (f a)). split; [reflexivity|].
    unfold cur, dv, vcr_st. cbn. fold (vcr_value K short (fst (f a))).
    assert (N : vcr_value K short (fst (f a)) <> 0).
    { unfold vcr_value. destruct (fz K (fst (f a))) eqn:Ez; [exact SN|now apply fz_nz]. }
    set (r := vcr_value K short (fst (f a))) in *. clearbody r. field. assumption.
  - destruct (differentiate _ _ _ _ _) as [i0|] eqn:Ed; [|discriminate]. cbn [bind] in E. injection E as <-.
    rewrite <- (sto_line _ _ _ _ _ _ Ed). unfold cur, dv. cbn. ring.
  - destruct (differentiate _ _ _ _ _) as [i0|] eqn:Ed; [|discriminate]. cbn [bind] in E. injection E as <-.
    rewrite <- (sto_line _ _ _ _ _ _ Ed). unfold cur, dv. cbn. ring.
  - destruct (differentiate _ _ _ _ _) as [i0|] eqn:Ed; [|discriminate]. cbn [bind] in E. injection E as <-.
    unfold cur, dv. cbn. transitivity (fc0 K i0 +' pf1 K i0 *' (x o1 -' x o2)); [ring|].
    rewrite fc0_line, (diff_line _ _ _ _ _ Ed). unfold sto.
    assert (X : pf0 K (vccap_y K f a w) +' pf1 K (vccap_y K f a w) *' (x o1 -' x o2 -' px K (vccap_y K f a w)) = fst (f a) *' (x o1 -' x o2)).
    { cbn. ring. } rewrite X. reflexivity.
  - destruct (differentiate _ _ _ _ _) as [i0|] eqn:Ed; [|discriminate]. cbn [bind] in E. injection E as <-.
    pose proof (diff_slope _ _ _ _ Ed) as Sl. pose proof (fun u => diff_line _ _ _ _ u Ed) as Li.
    assert (Cu : x o1 -' x o2 = fc0 K i0 +' (if fz K (pf1 K i0) then short else pf1 K i0) *'
        cur (EL K o1 o2 b a h p) (mkest K 0 (ind_m0 K short i0)) x).
    { unfold cur, dv, ind_m0. cbn. set (d := if fz K (pf1 K i0) then short else pf1 K i0).
      assert (N : d <> 0). { subst d. destruct (fz K (pf1 K i0)) eqn:Ez; [exact SN|now apply fz_nz]. }
      clearbody d. field. assumption. }
    set (i := cur (EL K o1 o2 b a h p) (mkest K 0 (ind_m0 K short i0)) x) in *. clearbody i.
    assert (Y : forall u, pf0 K (ind_y K short false b a) +' pf1 K (ind_y K short false b a) *' (u -' px K (ind_y K short false b a))
      = match b with Lin _ k => k *' u | Fun _ f => fst (f a) +' (if fz K (snd (f a)) then short else snd (f a)) *' (u -' a) end).
    { intros u. unfold ind_y. destruct b as [k|f]; cbn [negb andb y_of pf0 pf1 px].
      - ring. - destruct (fz K (snd (f a))); cbn; ring. }
    assert (Y1 : pf1 K (ind_y K short false b a) = match b with Lin _ k => k | Fun _ f => if fz K (snd (f a)) then short else snd (f a) end).
    { unfold ind_y. destruct b as [k|f]; cbn; [reflexivity|]. destruct (fz K (snd (f a))); reflexivity. }
    destruct (h_ph K h) eqn:Eh.
    + rewrite Sl in Cu. replace (fz K 0) with true in Cu by (symmetry; now apply fz_ok).
      rewrite Cu. specialize (Li 0). unfold rate in Li. rewrite Eh, Sl in Li. unfold fc0. rewrite Sl.
      transitivity (pf0 K i0 +' short *' i); [ring|]. transitivity ((pf0 K i0 +' 0 *' (0 -' px K i0)) +' short *' i); [ring|]. rewrite Li. ring.
    + subst i0. rewrite Cu. unfold fc0. destruct (fz K (pf1 K (p_i0 K p))) eqn:Ez.
      * apply fz_ok in Ez. rewrite Ez. ring. * ring.
    + destruct Sl as (k & Nk & Sl). rewrite Y1 in Sl. specialize (Li i). rewrite Y in Li. rewrite Cu.
      set (sl := match b with Lin _ k0 => k0 | Fun _ f => if fz K (snd (f a)) then short else snd (f a) end) in *.
      assert (Fz : fz K (pf1 K i0) = fz K sl).
      { destruct (fz K sl) eqn:E1.
        - apply fz_ok in E1. apply fz_ok. rewrite Sl, E1. ring.
        - destruct (fz K (pf1 K i0)) eqn:E2; [|reflexivity]. apply fz_ok in E2. rewrite Sl in E2.
          apply fz_nz in E1. exfalso. apply E1. transitivity ((sl *' k) /' k); [field; assumption|]. rewrite E2. rewrite div_def. ring. }
      rewrite Fz.
      assert (Li' : pf0 K i0 +' pf1 K i0 *' (i -' px K i0) = rate h p (match b with Lin _ k => k *' i | Fun _ f => fst (f a) +' sl *' (i -' a) end)).
      { rewrite Li. subst sl. destruct b; reflexivity. }
      rewrite <- Li'. unfold fc0. destruct (fz K sl) eqn:E1.
      * apply fz_ok in E1. rewrite Sl, E1. ring. * ring.
  - reflexivity.
  - exact I.
  - injection E as <-. unfold cur, dv. cbn. f_equal.
Qed.

(* ---- the rows of the matrix ---- *)
(* the terms of row r of the system, matrix part: what the node voltages x make of a unit value *)
Definition row (p : place) (x : Z -> T) (r : Z) : T :=
  match p with
  | PInode o1 o2 i1 => (dlt r o1 -' dlt r o2) *' x i1 +' dlt r i1 *' (x o1 -' x o2)
  | PShunt o1 o2 => (dlt r o1 -' dlt r o2) *' (x o1 -' x o2)
  | PCouple o1 o2 => -' (dlt r o1 *' x o2 +' dlt r o2 *' x o1)
  | PActive o1 o2 i1 i2 => (dlt r o1 -' dlt r o2) *' (x i1 -' x i2)
  | PDiagonal m => dlt r m *' x m
  | PPoint n1 n2 => dlt r n1 *' x n2
  | PSource _ _ | PSourcePoint _ => 0
  end.
Definition node_in (s n : Z) : Prop := (0 <= n <= s)%Z.
Definition place_in (s : Z) (p : place) : Prop :=
  match p with
  | PInode a b c => node_in s a /\ node_in s b /\ node_in s c
  | PShunt a b | PSource a b | PCouple a b | PPoint a b => node_in s a /\ node_in s b
  | PActive a b c d => node_in s a /\ node_in s b /\ node_in s c /\ node_in s d
  | PSourcePoint a | PDiagonal a => node_in s a
  end.
Lemma tot_delta : forall s x n, x 0%Z = 0 -> node_in s n -> tot K s (fun c => dlt c n *' x c) = x n.
Proof.
  intros s x n X0 Hn. unfold node_in in Hn. unfold tot. destruct (Z.eq_dec n 0) as [->|N].
  - rewrite fsum_zero; [now rewrite X0|]. intros k Hk. unfold delta. destruct (Z.eqb_spec k 0); [lia|]. ring.
  - transitivity (dlt n n *' x n); [|unfold delta; rewrite Z.eqb_refl; ring].
    apply (fsum_one K 1 (s + 1) (fun c => dlt c n *' x c) n); [lia|].
    intros k Hk Nk. unfold delta. destruct (Z.eqb_spec k n); [contradiction|ring].
Qed.
Lemma tot_add : forall s f g, tot K s (fun c => f c +' g c) = tot K s f +' tot K s g.
Proof. intros. unfold tot. apply fsum_add. Qed.
Lemma tot_scale : forall s a f, tot K s (fun c => a *' f c) = a *' tot K s f.
Proof. intros. unfold tot. apply fsum_scale. Qed.
Lemma tot_ext : forall s f g, (forall c, f c = g c) -> tot K s f = tot K s g.
Proof. intros. unfold tot. apply fsum_ext. intros. apply H. Qed.
Lemma tot_sub : forall s f g, tot K s (fun c => f c -' g c) = tot K s f -' tot K s g.
Proof.
  intros. transitivity (tot K s (fun c => f c +' (-' (1)) *' g c)). { apply tot_ext. intros. ring. }
  rewrite tot_add, tot_scale. ring.
Qed.
Lemma row_sum : forall s p x r, x 0%Z = 0 -> place_in s p -> tot K s (fun c => mstamp K p r c *' x c) = row p x r.
Proof.
  intros s p x r X0 Hp. destruct p as [o1 o2 i1|o1 o2|o1 o2|o1 o2|o1 o2 i1 i2|m|m|n1 n2]; cbn [place_in] in Hp; cbn [row mstamp].
  - destruct Hp as (H1 & H2 & H3).
    transitivity (tot K s (fun c => (dlt r o1 -' dlt r o2) *' (dlt c i1 *' x c) +' dlt r i1 *' (dlt c o1 *' x c -' dlt c o2 *' x c))).
    { apply tot_ext. intros. ring. }
    rewrite tot_add, !tot_scale, tot_sub, !tot_delta by assumption. reflexivity.
  - destruct Hp as (H1 & H2).
    transitivity (tot K s (fun c => (dlt r o1 -' dlt r o2) *' (dlt c o1 *' x c -' dlt c o2 *' x c))). { apply tot_ext. intros. ring. }
    rewrite tot_scale, tot_sub, !tot_delta by assumption. reflexivity.
  - transitivity (tot K s (fun c => 0 *' x c)); [reflexivity|]. rewrite tot_scale. ring.
  - destruct Hp as (H1 & H2).
    transitivity (tot K s (fun c => (-' (dlt r o1)) *' (dlt c o2 *' x c) +' (-' (dlt r o2)) *' (dlt c o1 *' x c))). { apply tot_ext. intros. ring. }
    rewrite tot_add, !tot_scale, !tot_delta by assumption. ring.
  - destruct Hp as (H1 & H2 & H3 & H4).
    transitivity (tot K s (fun c => (dlt r o1 -' dlt r o2) *' (dlt c i1 *' x c -' dlt c i2 *' x c))). { apply tot_ext. intros. ring. }
    rewrite tot_scale, tot_sub, !tot_delta by assumption. reflexivity.
  - transitivity (tot K s (fun c => 0 *' x c)); [reflexivity|]. rewrite tot_scale. ring.
  - transitivity (tot K s (fun c => dlt r m *' (dlt c m *' x c))). { apply tot_ext. intros. ring. }
    rewrite tot_scale, tot_delta by assumption. reflexivity.
  - destruct Hp as (H1 & H2).
    transitivity (tot K s (fun c => dlt r n1 *' (dlt c n2 *' x c))). { apply tot_ext. intros. ring. }
    rewrite tot_scale, tot_delta by assumption. reflexivity.
Qed.

(* what an element with current i takes out of row r: its current at its terminals, the voltage
   balance at the current node of an inductor, the mutual voltages *)
Definition leaves (e : element K) (i : T) (x : Z -> T) (r : Z) : T :=
  match e with
  | ELc _ o1 o2 i1 b a h p => (dlt r o1 -' dlt r o2) *' i +' dlt r i1 *' (x o1 -' x o2 -' sto h p b a i)
  | EK _ n1 n2 lm a1 a2 h p pf pr =>
      dlt r n1 *' sto h pr (Lin K (-' lm)) a2 (x n2) +' dlt r n2 *' sto h pf (Lin K (-' lm)) a1 (x n1)
  | _ => let '(o1, o2) := outs K e in (dlt r o1 -' dlt r o2) *' i
  end.
(* the three records of a mutual inductance agree: that of the difference of the currents is the
   difference of those of the currents *)
Definition mut_ok (h : hist K) (p pf pr : past K) : Prop :=
  match h_ph K h with
  | Static => True
  | Restore => fc0 K (p_i0 K p) = fc0 K (p_i0 K pf) -' fc0 K (p_i0 K pr) /\
      pf1 K (p_i0 K p) = pf1 K (p_i0 K pf) /\ pf1 K (p_i0 K p) = pf1 K (p_i0 K pr)
  | Dynamic => pf0 K (p_q1 K p) = pf0 K (p_q1 K pf) -' pf0 K (p_q1 K pr) /\
      (h_t1 K h <> h_t2 K h -> pf0 K (p_q2 K p) = pf0 K (p_q2 K pf) -' pf0 K (p_q2 K pr)) /\
      pf0 K (p_i1 K p) = pf0 K (p_i1 K pf) -' pf0 K (p_i1 K pr)
  end.
Definition elem_ok (e : element K) : Prop := match e with EK _ _ _ _ _ _ h p pf pr => mut_ok h p pf pr | _ => True end.

Lemma same_slope : forall h p p' y y' i i', differentiate K leb h p y = Some i -> differentiate K leb h p' y' = Some i' ->
  pf1 K y = pf1 K y' -> h_ph K h <> Restore -> pf1 K i = pf1 K i'.
Proof.
  intros h p p' y y' i i' E E' Hy N. unfold differentiate in *. destruct (h_ph K h); [| contradiction |].
  - destruct (fz K (h_t0 K h)); [|discriminate]. injection E as <-. injection E' as <-. reflexivity.
  - destruct (ltb K leb 0 (h_t0 K h -' h_t1 K h)); [|discriminate]. injection E as <-. injection E' as <-.
    destruct (if fz K (h_t1 K h -' h_t2 K h) then mEULER else h_m K h); cbn; now rewrite Hy.
Qed.
Lemma rate_bal : forall h p pf pr, mut_ok h p pf pr -> h_ph K h <> Restore -> rate h p 0 = rate h pf 0 -' rate h pr 0.
Proof.
  intros h p pf pr M N. unfold mut_ok, rate in *. destruct (h_ph K h); [ring|contradiction|].
  destruct M as (M1 & M2 & M3). destruct (fz K (h_t1 K h -' h_t2 K h)) eqn:Ez.
  - rewrite M1, !div_def. ring.
  - assert (Nt : h_t1 K h <> h_t2 K h). { intros E. apply fz_nz in Ez. apply Ez. rewrite E. ring. }
    specialize (M2 Nt). destruct (h_m K h); rewrite ?M1, ?M2, ?M3, !div_def; ring.
Qed.
Lemma lin_line : forall h p lm a i0 u, differentiate K leb h p (mkfp K a (a *' (-' lm)) (-' lm)) = Some i0 ->
  fc0 K i0 +' pf1 K i0 *' u = sto h p (Lin K (-' lm)) a u.
Proof. intros h p lm a i0 u E. exact (sto_line h p (Lin K (-' lm)) a i0 u E). Qed.

Definition slots_row (l : list (place * T)) (x : Z -> T) (r : Z) : T :=
  lsum K (map (fun pv => snd pv *' row (fst pv) x r -' snd pv *' rstamp K (fst pv) r) l).
Lemma lsum_cons' : forall a l, lsum K (a :: l) = a +' lsum K l. Proof. reflexivity. Qed.
Ltac sums := unfold slots_row; cbn [map fst snd row rstamp]; rewrite ?lsum_cons'; change (lsum K []) with 0.

Lemma slots_leaves : forall e s l x r, eval K short leb e = Some s -> slots K short leb e = Some l -> x 0%Z = 0 -> elem_ok e ->
  slots_row l x r = leaves e (cur e s x) x r.
Proof.
  intros e s l x r E El X0 Ok. unfold slots in El. rewrite E in El. cbn [bind] in El.
  destruct e as [o1 o2 b a|o1 o2 b a|o1 o2 i1 i2 b a|o1 o2 v|o1 o2 v|o1 o2 i1 i2 b a|o1 o2 inp b a|o1 o2 inp b a
    |o1 o2 i1 i2 f a w|o1 o2 i1 i2 f a w|o1 o2 b a h p|o1 o2 i1 i2 b a h p|o1 o2 i1 i2 f a w h p|o1 o2 b a h p
    |o1 o2 i1 b a h p|n1 n2 lm a1 a2 h p pf pr|o1 o2 v0 v1 ports]; cbn [elem_ok] in Ok; cbn [outs ins] in El.
  - injection E as <-. injection El as <-. sums. unfold leaves, cur, dv. cbn. ring.
  - injection E as <-. injection El as <-. sums. unfold leaves, cur, dv. cbn. ring.
  - injection E as <-. injection El as <-. sums. unfold leaves, cur, dv. cbn. ring.
  - injection E as <-. injection El as <-. sums. unfold leaves, cur, dv. cbn. ring.
  - injection E as <-. injection El as <-. sums. unfold leaves, cur, dv. cbn. ring.
  - injection E as <-. injection El as <-. sums. unfold leaves, cur, dv. cbn. ring.
  - cbn [eval] in E. destruct (has_iv_probe K inp) eqn:P; [|discriminate]. destruct (eval K short leb inp) as [si|]; [|discriminate].
    cbn [bind] in E. injection E as <-. unfold leaves, cur. cbn [outs ins].
    destruct (match inp with ELc _ _ _ i1 _ _ _ _ => (i1, 0%Z) | _ => outs K inp end) as [j1 j2].
    injection El as <-. sums. unfold dv. cbn. ring.
  - cbn [eval] in E. rewrite andb_comm in E.
    destruct (negb (has_inode K inp && match b with Lin _ _ => true | Fun _ _ => false end)); [|discriminate]. cbn [andb] in E.
    destruct (has_iv_probe K inp) eqn:P; [|discriminate]. destruct (eval K short leb inp) as [si|]; [|discriminate].
    cbn [bind] in E. injection E as <-. unfold leaves, cur. cbn [outs ins].
    destruct (match inp with ELc _ _ _ i1 _ _ _ _ => (i1, 0%Z) | _ => outs K inp end) as [j1 j2].
    injection El as <-. sums. unfold dv. cbn. ring.
  - injection E as <-. injection El as <-. sums. unfold leaves, cur, dv. cbn. ring.
  - injection E as <-. injection El as <-. sums. unfold leaves, cur, dv. cbn. ring.
  - injection El as <-. cbn [eval] in E. destruct (differentiate K leb h p (y_of K b a)) as [i0|]; [|discriminate]. cbn [bind] in E. injection E as <-.
    sums. unfold leaves, cur, dv. cbn. ring.
  - injection El as <-. cbn [eval] in E. destruct (differentiate K leb h p (y_of K b a)) as [i0|]; [|discriminate]. cbn [bind] in E. injection E as <-.
    sums. unfold leaves, cur, dv. cbn. ring.
  - injection El as <-. cbn [eval] in E. destruct (differentiate K leb h p (vccap_y K f a w)) as [i0|]; [|discriminate]. cbn [bind] in E. injection E as <-.
    sums. unfold leaves, cur, dv. cbn. ring.
  - injection El as <-. cbn [eval] in E. destruct (differentiate K leb h p (ind_y K short false b a)) as [i0|]; [|discriminate]. cbn [bind] in E. injection E as <-.
    sums. unfold leaves, cur, dv. cbn. ring.
  - injection El as <-. cbn [eval] in E. destruct (differentiate K leb h p (ind_y K short true b a)) as [i0|] eqn:Ed; [|discriminate]. cbn [bind] in E. injection E as <-.
    sums. cbn [leaves cur].
    replace (ind_y K short true b a) with (y_of K b a) in Ed by (destruct b; reflexivity).
    rewrite <- (sto_line _ _ _ _ _ _ Ed). cbn [e_loss e_m cc0 cc1]. ring.
  - cbn [eval] in E. destruct (differentiate K leb h p _) as [i0|] eqn:Ed in E; [|discriminate]. cbn [bind] in E. injection E as <-.
    unfold mut_c0 in El. destruct (differentiate K leb h pf _) as [jf|] eqn:Ef in El; [|discriminate].
    destruct (differentiate K leb h pr _) as [jr|] eqn:Er in El; [|discriminate]. cbn [bind] in El. injection El as <-.
    sums. cbn [leaves e_m cc0 cc1]. rewrite <- (lin_line _ _ _ _ _ _ Ef), <- (lin_line _ _ _ _ _ _ Er).
    assert (B : fc0 K i0 = fc0 K jf -' fc0 K jr /\ pf1 K i0 = pf1 K jf /\ pf1 K i0 = pf1 K jr).
    { pose proof (lin_line _ _ _ _ _ 0 Ed) as L1. pose proof (lin_line _ _ _ _ _ 0 Ef) as L2. pose proof (lin_line _ _ _ _ _ 0 Er) as L3.
      pose proof (diff_slope _ _ _ _ Ed) as S1. pose proof (diff_slope _ _ _ _ Ef) as S2. pose proof (diff_slope _ _ _ _ Er) as S3.
      unfold sto in *. cbn [lin_at] in *. destruct (h_ph K h) eqn:Eh.
      - unfold rate in *. rewrite Eh in *. rewrite S1, S2, S3 in *. split; [|split; reflexivity].
        transitivity (fc0 K i0 +' 0 *' 0); [ring|]. transitivity ((fc0 K jf +' 0 *' 0) -' (fc0 K jr +' 0 *' 0)); [rewrite L1, L2, L3; ring|ring].
      - subst. unfold mut_ok in Ok. rewrite Eh in Ok. exact Ok.
      - assert (NR : h_ph K h <> Restore) by congruence. pose proof (rate_bal _ _ _ _ Ok NR) as RB.
        replace ((-' lm) *' 0) with 0 in L1, L2, L3 by ring.
        split; [|split].
        + transitivity (fc0 K i0 +' pf1 K i0 *' 0); [ring|]. rewrite L1, RB, <- L2, <- L3. ring.
        + apply (same_slope _ _ _ _ _ _ _ Ed Ef eq_refl NR).
        + apply (same_slope _ _ _ _ _ _ _ Ed Er eq_refl NR). }
    destruct B as (B1 & B2 & B3). rewrite B1, <- B2, <- B3. ring.
  - cbn [eval] in E. injection E as <-. injection El as <-. unfold slots_row. cbn [leaves cur outs e_m cc0 cc1].
    cbn [app map fst snd row rstamp]. rewrite !lsum_cons'.
    assert (G : lsum K (map (fun pv : place * T => snd pv *' row (fst pv) x r -' snd pv *' rstamp K (fst pv) r)
        (map (fun q : Z * Z * T => (PActive o1 o2 (fst (fst q)) (snd (fst q)), snd q)) ports)) =
      (dlt r o1 -' dlt r o2) *' lsum K (map (fun q => snd q *' dv K x (fst q)) ports)).
    { induction ports as [|q l IH]; [cbn; ring|]. cbn [map fst snd row rstamp]. rewrite !lsum_cons', IH. unfold dv. ring. }
    rewrite G. generalize (lsum K (map (fun q : Z * Z * T => snd q *' dv K x (fst q)) ports)). intros t. unfold dv. cbn [fst snd]. ring.
Qed.

(* ---- the circuit ---- *)
(* device d holds the values of element e, as loaded *)
Definition carries (d : dev (exA K)) (e : element K) : Prop :=
  slots K short leb e = Some (map (fun sl => (s_place _ sl, s_old _ sl)) (d_slots _ d)).
Definition nodes_in (s : Z) (e : element K) : Prop :=
  forall l p v, slots K short leb e = Some l -> In (p, v) l -> place_in s p.
Lemma slots_eval : forall e l, slots K short leb e = Some l -> exists s, eval K short leb e = Some s.
Proof. intros e l E. unfold slots in E. destruct (eval K short leb e) as [s|]; [eexists; reflexivity|discriminate]. Qed.

Lemma dev_row : forall s x d e r st, x 0%Z = 0 -> carries d e -> nodes_in s e -> elem_ok e -> eval K short leb e = Some st ->
  tot K s (fun c => dev_m K d r c *' x c) -' dev_r K d r = d_m _ d *' leaves e (cur e st x) x r.
Proof.
  intros s x d e r st X0 C N Ok E. rewrite <- (slots_leaves e st _ x r E C X0 Ok).
  assert (H : forall p v, In (p, v) (map (fun sl => (s_place (exA K) sl, s_old (exA K) sl)) (d_slots _ d)) -> place_in s p).
  { intros p v Hin. apply (N _ p v C Hin). }
  unfold dev_m, dev_r, slots_m, slots_r, slots_row. set (mf := d_m (exA K) d). clearbody mf. clear C N.
  generalize dependent (d_slots (exA K) d). intros l. induction l as [|sl l IH]; intros H.
  - cbn [map]. change (lsum K []) with 0. rewrite tot_scale. ring.
  - cbn [map fst snd]. rewrite !lsum_cons'.
    transitivity (mf *' s_old (exA K) sl *' tot K s (fun c => mstamp K (s_place _ sl) r c *' x c)
      +' tot K s (fun c => lsum K (map (fun sl => mf *' s_old (exA K) sl *' mstamp K (s_place (exA K) sl) r c) l) *' x c)
      -' (mf *' s_old (exA K) sl *' rstamp K (s_place (exA K) sl) r +' lsum K (map (fun sl => mf *' s_old (exA K) sl *' rstamp K (s_place (exA K) sl) r) l))).
    { rewrite <- tot_scale, <- tot_add. f_equal. apply tot_ext. intros c. rewrite !lsum_cons'. ring. }
    rewrite (row_sum s (s_place _ sl) x r X0) by (apply (H _ (s_old _ sl)); now left).
    assert (IH' := IH (fun p v Hin => H p v (or_intror Hin))).
    set (t1 := tot K s _) in *. set (t2 := lsum K (map (fun sl0 => mf *' s_old (exA K) sl0 *' rstamp K (s_place (exA K) sl0) r) l)) in *.
    set (t3 := lsum K (map _ (map _ l))) in *. clearbody t1 t2 t3.
    transitivity (mf *' s_old (exA K) sl *' row (s_place (exA K) sl) x r -' mf *' s_old (exA K) sl *' rstamp K (s_place (exA K) sl) r +' (t1 -' t2)); [ring|].
    rewrite IH'. ring.
Qed.

(* the sum over the elements of what leaves row r *)
Definition sum_leaves (des : list (dev (exA K) * (element K * T))) (x : Z -> T) (r : Z) : T :=
  lsum K (map (fun q => d_m (exA K) (fst q) *' leaves (fst (snd q)) (snd (snd q)) x r) des).

Lemma kcl : forall s x g (z : Z -> T) ds es, x 0%Z = 0 ->
  Forall2 carries ds es -> Forall (nodes_in s) es -> Forall elem_ok es ->
  (forall r, (1 <= r <= s)%Z ->
    tot K s (fun c => (g *' dlt r c +' devs_m K ds r c +' (if (r =? c)%Z then z r else 0)) *' x c) = devs_r K ds r) ->
  exists I, length I = length es /\ (forall e i, In (e, i) (combine es I) -> law e x i /\ (probed e = true -> tr_amps K short leb e x = Some i)) /\
    forall r, (1 <= r <= s)%Z -> (g +' z r) *' x r +' sum_leaves (combine ds (combine es I)) x r = 0.
Proof.
  intros s x g z ds es X0 C N Ok Sys.
  assert (G : exists I, length I = length es /\
    (forall e i, In (e, i) (combine es I) -> law e x i /\ (probed e = true -> tr_amps K short leb e x = Some i)) /\
    forall r, tot K s (fun c => devs_m K ds r c *' x c) -' devs_r K ds r = sum_leaves (combine ds (combine es I)) x r).
  { clear Sys. induction C as [|d e ds es Cd C IH].
    - exists []. split; [reflexivity|]. split; [intros e i []|]. intros r. unfold devs_m, devs_r, sum_leaves. cbn [map combine].
      change (lsum K []) with 0. rewrite tot_scale. ring.
    - inversion N as [|? ? Ne Nes]; subst. inversion Ok as [|? ? Oe Oes]; subst.
      destruct (IH Nes Oes) as (I & LI & HI & Hs). destruct (slots_eval _ _ Cd) as (st & Est).
      exists (cur e st x :: I). split; [cbn; now rewrite LI|]. split.
      + intros e' i [E|Hin]; [|now apply HI]. injection E as <- <-. split; [now apply law_cur|]. intros P. now apply probe_cur.
      + intros r. specialize (Hs r). unfold sum_leaves in *. cbn [combine map fst snd]. rewrite lsum_cons', <- Hs.
        rewrite <- (dev_row s x d e r st X0 Cd Ne Oe Est). unfold devs_m, devs_r. cbn [map]. rewrite !lsum_cons'.
        transitivity (tot K s (fun c => dev_m K d r c *' x c) +' tot K s (fun c => lsum K (map (fun d0 => dev_m K d0 r c) ds) *' x c)
           -' (dev_r K d r +' lsum K (map (fun d0 => dev_r K d0 r) ds))); [|ring].
        rewrite <- tot_add. f_equal. apply tot_ext. intros c. rewrite lsum_cons'. ring. }
  destruct G as (I & LI & HI & Hs). exists I. split; [assumption|]. split; [assumption|]. intros r Hr. rewrite <- Hs, <- (Sys r Hr).
  transitivity ((g +' z r) *' tot K s (fun c => dlt c r *' x c) +' (tot K s (fun c => devs_m K ds r c *' x c) -'
     tot K s (fun c => (g *' dlt r c +' devs_m K ds r c +' (if (r =? c)%Z then z r else 0)) *' x c))).
  { rewrite tot_delta; [ring|assumption|unfold node_in; lia]. }
  rewrite <- tot_scale, <- tot_sub, <- tot_add. transitivity (tot K s (fun c => 0 *' x c)); [|rewrite tot_scale; ring].
  apply tot_ext. intros c. unfold delta. rewrite (Z.eqb_sym c r). destruct (r =? c)%Z eqn:E; ring.
Qed.
End El.
End S.
