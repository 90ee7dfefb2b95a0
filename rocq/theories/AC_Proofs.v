(* What the ac stamps of the elements mean, and what AC::solve finds, in any exact field. *)
Require Import ZArith List Bool Lia Field.
Require Import Verif.Loops Verif.FieldSums Verif.Matrix_Model Verif.Matrix_Layout Verif.Matrix_LU Verif.Matrix_Load Verif.Matrix_Exact Verif.Matrix_Spec
  Verif.Matrix_InPlace Verif.Matrix_Main Verif.Solver_Model Verif.Solver_Proofs Verif.Solver_Content Verif.Storage_Model Verif.Elements_Model Verif.Elements_Proofs Verif.AC_Model.
Import ListNotations.

Section S.
Variable K : fld.
Add Field Kac : (fth K).
Notation T := (F K).
Notation "0" := (f0 K). Notation "1" := (f1 K).
Notation "a +' b" := (fadd K a b) (at level 50, left associativity).
Notation "a -' b" := (fsub K a b) (at level 50, left associativity).
Notation "a *' b" := (fmul K a b) (at level 40, left associativity).
Notation "a /' b" := (fdiv K a b) (at level 40, left associativity).
Notation "-' a" := (fopp K a) (at level 35, right associativity).
Notation dlt := (delta K).
Notation A := (exA K).

Section El.
Variable short : T.
Variable leb : T -> T -> bool.
Variable small : T -> bool.
Variable jw : T.
Variable op : bool.

(* ---- the specification ---- *)
(* the slope of the behaviour: what the ac behaviour gives at the operating point (0 when there is
   none), or else the slope at the operating point *)
Definition slope (b : beh K) (a : T) (s : aset K) : T :=
  match a_eval K s with
  | Some g => g (if op then a else 0)
  | None => match b with Lin _ k => k | Fun _ f => snd (f a) end
  end.
(* that of a resistor: not below shortckt *)
Definition res_slope (b : beh K) (a : T) (s : aset K) : T :=
  let r := match a_eval K s with
    | Some _ => slope b a s
    | None => if op then match b with
        | Lin _ k => if ltb K leb (abs K leb k) short then short else k
        | Fun _ f => if leb short (snd (f a)) || leb (snd (f a)) (-' short) then snd (f a) else if leb 0 (snd (f a)) then short else -' short
        end else slope b a s
    end in
  if (a_probes K s || match a_eval K s with Some _ => true | None => false end) && small r then short else r.
(* that of an inductor without current node, and of a nonlinear one never 0 *)
Definition ind_slope (b : beh K) (a : T) (s : aset K) : T :=
  match a_eval K s, b with
  | None, Fun _ f => if fz K (snd (f a)) then short else snd (f a)
  | _, _ => slope b a s
  end.
(* the ac value of a source *)
Definition src_value (s : aset K) : T := match a_eval K s with Some g => g 0 | None => 0 end.
(* the small-signal law of each element: x the ac voltages, i the ac current; sin the settings of the
   element that is sensed *)
Fixpoint law_ac (e : element K) (s sin : aset K) (x : Z -> T) (i : T) : Prop :=
  let v n1 n2 := x n1 -' x n2 in
  match e with
  | ER _ o1 o2 b a => v o1 o2 = res_slope b a s *' i
  | EY _ o1 o2 b a => i = slope b a s *' v o1 o2
  | EG _ _ _ i1 i2 b a => i = slope b a s *' v i1 i2
  | EV _ o1 o2 _ => v o1 o2 = src_value s +' short *' i
  | EI _ _ _ _ => i = src_value s
  | EE _ o1 o2 i1 i2 b a => v o1 o2 = slope b a s *' v i1 i2 +' short *' i
  | EF _ _ _ inp b a => exists j, ac_amps K short leb small jw op (mkael K inp sin sin) x = Some j /\ law_ac inp sin sin x j /\ i = slope b a s *' j
  | EH _ o1 o2 inp b a => exists j, ac_amps K short leb small jw op (mkael K inp sin sin) x = Some j /\ law_ac inp sin sin x j /\
      v o1 o2 = slope b a s *' j +' short *' i
  | EVCG _ o1 o2 i1 i2 f a w => i = fst (f a) *' v o1 o2 +' slope (Fun K f) a s *' w *' v i1 i2
  | EVCR _ o1 o2 i1 i2 f a w => exists r, r = (if fz K (fst (f a)) then short else fst (f a)) /\
      v o1 o2 = r *' i +' slope (Fun K f) a s /' r *' w *' v i1 i2
  | EC _ o1 o2 b a _ _ => i = jw *' (slope b a s *' v o1 o2)
  | ETC _ _ _ i1 i2 b a _ _ => i = jw *' (slope b a s *' v i1 i2)
  | EVCC _ o1 o2 _ _ f a _ _ _ => i = jw *' (fst (f a) *' v o1 o2)
  | EL _ o1 o2 b a _ _ => let l := ind_slope b a s in v o1 o2 = (if fz K (l *' jw) then short *' i else jw *' (l *' i))
  | ELc _ _ _ i1 _ _ _ _ => i = x i1
  | EK _ _ _ _ _ _ _ _ _ _ => True
  | EP _ o1 o2 _ v1 ports => i = v1 *' v o1 o2 +' lsum K (map (fun q => snd q *' v (fst (fst q)) (snd (fst q))) ports)
  end.
(* what it takes out of row r: as in Elements_Proofs.leaves, with jw times the flux *)
Definition leaves_ac (e : element K) (s : aset K) (i : T) (x : Z -> T) (r : Z) : T :=
  match e with
  | ELc _ o1 o2 i1 b a _ _ => (dlt r o1 -' dlt r o2) *' i +' dlt r i1 *' (x o1 -' x o2 -' jw *' (slope b a s *' i))
  | EK _ n1 n2 lm _ _ _ _ _ _ => -' (jw *' lm *' (dlt r n1 *' x n2 +' dlt r n2 *' x n1))
  | _ => let '(o1, o2) := outs K e in (dlt r o1 -' dlt r o2) *' i
  end.
(* the cases in which the law holds: see the refutations in P_AC for the others.  Without ac
   behaviour a value is given, or there is an operating point; a source without ac behaviour has no
   probe *)
Definition beh_ready (b : beh K) (s : aset K) : Prop :=
  match b, a_eval K s with Lin _ _, Some _ => False | Fun _ _, None => op = true | _, _ => True end.
Fixpoint ready (e : element K) (s sin : aset K) : Prop :=
  (op = true -> exists st, eval K short leb e = Some st) /\
  match e with
  | ER _ _ _ b _ => beh_ready b s /\ (op = false -> a_probes K s = false -> match b with Lin _ k => k <> 0 | Fun _ _ => True end)
  | EY _ _ _ b _ | EG _ _ _ _ _ b _ | EE _ _ _ _ _ b _ | EC _ _ _ b _ _ _ | ETC _ _ _ _ _ b _ _ _
  | EL _ _ _ b _ _ _ | ELc _ _ _ _ b _ _ _ => beh_ready b s
  | EV _ _ _ _ | EI _ _ _ _ => a_eval K s = None -> a_probes K s = false
  | EF _ _ _ inp b _ => beh_ready b s /\ has_iv_probe K inp = true /\ ready inp sin sin
  | EH _ _ _ inp b _ => beh_ready b s /\ has_iv_probe K inp = true /\ ready inp sin sin /\ op = true
  | EVCG _ _ _ _ _ _ _ _ | EVCR _ _ _ _ _ _ _ _ => op = true
  | EVCC _ _ _ _ _ _ _ _ _ _ => op = true /\ a_eval K s = None
  | EK _ _ _ _ _ _ _ _ _ _ => a_eval K s = None
  | EP _ _ _ _ _ _ => True
  end.
(* the ac probe shows the current: not for a transcapacitor, F and H that sense a fixed source, and
   not given for K and for DEV_CPOLY_G *)
Definition probed_ac (e : element K) : bool :=
  match e with
  | ETC _ _ _ _ _ _ _ _ _ | EK _ _ _ _ _ _ _ _ _ _ | EP _ _ _ _ _ _ => false
  | EF _ _ _ inp _ _ | EH _ _ _ inp _ _ => match inp with EV _ _ _ _ | EI _ _ _ _ => false | _ => true end
  | _ => true
  end.

(* ---- what do_ac leaves ---- *)
Definition acg_of (e : element K) (s : aset K) : T :=
  match e with
  | ER _ _ _ b a => 1 /' res_slope b a s
  | EY _ _ _ b a | EG _ _ _ _ _ b a => slope b a s
  | EV _ _ _ _ => -' (1 /' short) *' src_value s
  | EI _ _ _ _ => src_value s
  | EE _ _ _ _ _ b a => -' (1 /' short) *' slope b a s
  | EVCG _ _ _ _ _ f a w => slope (Fun K f) a s *' w
  | EVCR _ _ _ _ _ f a w => let l := 1 /' vcr_value K short (fst (f a)) in -' slope (Fun K f) a s *' l *' l *' w
  | EC _ _ _ b a _ _ | ETC _ _ _ _ _ b a _ _ => slope b a s *' jw
  | EVCC _ _ _ _ _ f a _ _ _ => fst (f a) *' jw
  | EL _ _ _ b a _ _ => if fz K (ind_slope b a s *' jw) then 1 /' short else 1 /' (ind_slope b a s *' jw)
  | ELc _ _ _ _ b a _ _ => -' (1 *' 1) *' slope b a s *' jw
  | EK _ _ _ lm _ _ _ _ _ _ => -' (1 *' 1) *' (-' lm) *' jw
  | EP _ _ _ _ v1 _ => v1
  | _ => 0
  end.
Definition loss_of (e : element K) : T :=
  match e with
  | EV _ _ _ _ | EE _ _ _ _ _ _ _ | EH _ _ _ _ _ _ => 1 /' short
  | EVCG _ _ _ _ _ f a _ => fst (f a)
  | EVCR _ _ _ _ _ f a _ => 1 /' vcr_value K short (fst (f a))
  | ELc _ _ _ _ _ _ _ _ | EK _ _ _ _ _ _ _ _ _ _ => 1
  | _ => 0
  end.
Definition senses (e : element K) : bool := match e with EF _ _ _ _ _ _ | EH _ _ _ _ _ _ => true | _ => false end.

Lemma eqb_refl : forall a, eqb K a a = true.
Proof. intros a. unfold eqb. apply fz_ok. ring. Qed.
Lemma ready_eval : forall e s sin, ready e s sin -> op = true -> exists st, eval K short leb e = Some st.
Proof. intros e s sin R H. destruct e; exact (proj1 R H). Qed.
Lemma with_m : forall (e : element K) s sin, ready e s sin ->
  exists st, (if op then eval K short leb e else Some (mkest K 0 (mkcp K 0 0 0))) = Some st /\ (op = true -> eval K short leb e = Some st).
Proof.
  intros e s sin R. destruct op eqn:Eo.
  - destruct (ready_eval e s sin R Eo) as (st & E). exists st. now split.
  - eexists. split; [reflexivity|]. discriminate.
Qed.
Lemma loss_eval : forall e st, eval K short leb e = Some st ->
  match e with ER _ _ _ _ _ | EY _ _ _ _ _ | EG _ _ _ _ _ _ _ | EI _ _ _ _ | EF _ _ _ _ _ _ | EC _ _ _ _ _ _ _ | ETC _ _ _ _ _ _ _ _ _
    | EVCC _ _ _ _ _ _ _ _ _ _ | EP _ _ _ _ _ _ => e_loss K st = 0 | _ => True end.
Proof.
  intros e st E. destruct e; try exact I; cbn [eval] in E; try (injection E as <-; reflexivity).
  - destruct (has_iv_probe K e); [|discriminate]. destruct (eval K short leb e); [|discriminate]. cbn [bind] in E. injection E as <-. reflexivity.
  - destruct (differentiate _ _ _ _ _); [|discriminate]. injection E as <-. reflexivity.
  - destruct (differentiate _ _ _ _ _); [|discriminate]. injection E as <-. reflexivity.
  - destruct (differentiate _ _ _ _ _); [|discriminate]. injection E as <-. reflexivity.
Qed.

(* the slope that ac_begin and ac_eval find *)
Lemma slope_y : forall b a s y, beh_ready b s ->
  y = (if op then y_of K b a else mkfp K 0 0 (lin_value K b)) ->
  (using_ac K s = true -> ac_ev K s y = slope b a s) /\
  (using_ac K s = false -> pf1 K y = slope b a s /\ match b with Lin _ v => pf1 K y = v | Fun _ _ => True end).
Proof.
  intros b a s y R ->. unfold using_ac, ac_ev, slope, beh_ready in *.
  destruct b as [k|f]; destruct (a_eval K s) as [g|]; try contradiction; cbn [orb].
  - rewrite orb_false_r. destruct op; cbn; auto.
  - rewrite orb_true_r. split; [|discriminate]. destruct op; reflexivity.
  - rewrite R. cbn. auto.
Qed.
Lemma slope_ind : forall c b a s y, beh_ready b s ->
  y = (if op then ind_y K short c b a else mkfp K 0 0 (lin_value K b)) ->
  (using_ac K s = true -> ac_ev K s y = if c then slope b a s else ind_slope b a s) /\
  (using_ac K s = false -> pf1 K y = (if c then slope b a s else ind_slope b a s) /\ match b with Lin _ v => pf1 K y = v | Fun _ _ => True end).
Proof.
  intros c b a s y R ->. unfold using_ac, ac_ev, ind_slope, slope, beh_ready, ind_y in *.
  destruct b as [k|f]; destruct (a_eval K s) as [g|]; try contradiction; cbn [orb].
  - rewrite orb_false_r. destruct c; destruct op; cbn; auto.
  - rewrite orb_true_r. split; [|discriminate]. destruct c; destruct op; cbn; try reflexivity. destruct (fz K (snd (f a))); reflexivity.
  - rewrite R. destruct c; cbn; [auto|]. destruct (fz K (snd (f a))); auto.
Qed.
Lemma checked_ok : forall e b, b_ev K b = pf1 K (b_y K b) -> (has_tr K e = false -> b_ev K b = value_of K e) -> checked K e b = true.
Proof.
  intros e b E1 H. unfold checked. rewrite E1, eqb_refl. cbn [andb]. destruct (has_tr K e); [reflexivity|].
  rewrite <- E1, H by reflexivity. apply eqb_refl.
Qed.
Lemma beh_tr : forall b (y : T), match b with Lin _ v => y = v | Fun _ _ => True end ->
  match b with Lin _ _ => false | Fun _ _ => true end = false -> y = lin_value K b.
Proof. intros [k|f] y H E; cbn; [exact H|discriminate]. Qed.

Lemma do1 : forall e s sin, senses e = false -> ready e s sin -> exists b, ac_begin K short leb op e = Some b /\ exists v,
  do_ac1 K short small jw e s b = Some v /\ v_acg K v = acg_of e s /\ v_loss K v = loss_of e.
Proof.
  intros e s sin Ns R. destruct (with_m e s sin R) as (st & Est & Hop).
  assert (Lz := loss_eval e).
  assert (Z : match e with ER _ _ _ _ _ | EY _ _ _ _ _ | EG _ _ _ _ _ _ _ | EI _ _ _ _ | EF _ _ _ _ _ _ | EC _ _ _ _ _ _ _ | ETC _ _ _ _ _ _ _ _ _
    | EVCC _ _ _ _ _ _ _ _ _ _ | EP _ _ _ _ _ _ => e_loss K st = 0 | _ => True end).
  { destruct op eqn:Eo; [exact (Lz st (Hop eq_refl))|]. injection Est as <-. destruct e; try exact I; reflexivity. }
  clear Lz. unfold ac_begin. rewrite Est. cbn [bind].
  destruct e as [o1 o2 b a|o1 o2 b a|o1 o2 i1 i2 b a|o1 o2 v|o1 o2 v|o1 o2 i1 i2 b a|o1 o2 inp b a|o1 o2 inp b a
    |o1 o2 i1 i2 f a w|o1 o2 i1 i2 f a w|o1 o2 b a h p|o1 o2 i1 i2 b a h p|o1 o2 i1 i2 f a w h p|o1 o2 b a h p
    |o1 o2 i1 b a h p|n1 n2 lm a1 a2 h p pf pr|o1 o2 v0 v1 ports]; cbn [senses] in Ns; try discriminate Ns; cbn [ready] in R; destruct R as (_ & R);
    (eexists; split; [reflexivity|]); cbn [do_ac1]; unfold elem_begin; cbn [y_tr y_new value_of].
  - (* R *) destruct R as (R & _). cbn [acg_of loss_of]. 
    set (y := if op then match b with Lin _ v => mkfp K 0 0 (res_value K short leb v) | Fun _ _ => res_clamp K short leb (y_of K b a) end
              else mkfp K 0 0 (lin_value K b)).
    assert (Y : (using_ac K s = true -> (if small (ac_ev K s y) then short else ac_ev K s y) = res_slope b a s) /\
      (using_ac K s = false -> pf1 K y = res_slope b a s /\ match b with Lin _ v => pf1 K y = v \/ pf1 K y = short | Fun _ _ => True end)).
    { subst y. unfold res_slope, using_ac, ac_ev, slope, beh_ready in *.
      destruct b as [k|f]; destruct (a_eval K s) as [g|]; try contradiction; cbn [orb lin_value].
      - rewrite orb_false_r. unfold res_value. split; intros ->; cbn [andb].
        + destruct op; reflexivity.
        + destruct op; cbn [pf1]; [|auto]. destruct (ltb _ _ _ _); auto.
      - rewrite orb_true_r. cbn [andb]. split; [intros _|discriminate]. destruct op; cbn [px]; [|reflexivity].
        unfold res_clamp. cbn [y_of px pf0 pf1]. destruct (leb short (snd (f a))); [reflexivity|]. destruct (leb (snd (f a)) (-' short)); [reflexivity|].
        destruct (leb 0 (snd (f a))); reflexivity.
      - rewrite R, orb_false_r. unfold res_clamp. cbn [y_of px pf0 pf1].
        destruct (leb short (snd (f a))) eqn:E1; cbn [orb pf1]; [|destruct (leb (snd (f a)) (-' short)) eqn:E2; [|destruct (leb 0 (snd (f a)))]];
          cbn [pf1]; split; intros ->; cbn [andb]; auto. }
    clearbody y. destruct (using_ac K s).
    + destruct Y as (Y & _). eexists. split; [reflexivity|]. cbn [v_acg v_loss b_y b_loss]. rewrite Y by reflexivity. auto.
    + destruct Y as (_ & Y). destruct (Y eq_refl) as (Y1 & Y2).
      cbn [b_ev b_y b_acg b_loss has_tr value_of]. eexists. split.
      * rewrite eqb_refl. cbn [andb]. replace (_ || _ || _) with true; [reflexivity|]. symmetry. destruct b as [k|f]; [|reflexivity].
        cbn [orb lin_value]. destruct Y2 as [E|E]; rewrite E, eqb_refl; [reflexivity|apply orb_true_r].
      * cbn [v_acg v_loss]. rewrite Y1. auto.
  - (* Y *) cbn [acg_of loss_of]. destruct (slope_y b a s _ R eq_refl) as (Y1 & Y2). destruct (using_ac K s).
    + eexists. split; [reflexivity|]. cbn. split; [now apply Y1|exact Z].
    + destruct (Y2 eq_refl) as (E1 & E2). rewrite checked_ok; [|reflexivity|cbn; now apply beh_tr].
      eexists. split; [reflexivity|]. cbn. split; [exact E1|exact Z].
  - (* G *) cbn [acg_of loss_of]. destruct (slope_y b a s _ R eq_refl) as (Y1 & Y2). destruct (using_ac K s).
    + eexists. split; [reflexivity|]. cbn. split; [now apply Y1|exact Z].
    + destruct (Y2 eq_refl) as (E1 & E2). rewrite checked_ok; [|reflexivity|cbn; now apply beh_tr].
      eexists. split; [reflexivity|]. cbn. split; [exact E1|exact Z].
  - (* V *) cbn [acg_of loss_of b_y b_loss]. unfold using_ac, ac_ev, src_value. destruct (a_eval K s) as [g|].
    + rewrite orb_true_r. eexists. split; [reflexivity|]. cbn. split; [|reflexivity]. destruct op; reflexivity.
    + rewrite R by reflexivity. eexists. split; [reflexivity|]. cbn. split; [ring|reflexivity].
  - (* I *) cbn [acg_of loss_of b_y b_loss]. unfold using_ac, ac_ev, src_value. destruct (a_eval K s) as [g|].
    + rewrite orb_true_r. eexists. split; [reflexivity|]. cbn. split; [destruct op; reflexivity|exact Z].
    + rewrite R by reflexivity. eexists. split; [reflexivity|]. cbn. split; [ring|exact Z].
  - (* E *) cbn [acg_of loss_of]. destruct (slope_y b a s _ R eq_refl) as (Y1 & Y2). destruct (using_ac K s).
    + eexists. split; [reflexivity|]. cbn. split; [now rewrite Y1|reflexivity].
    + destruct (Y2 eq_refl) as (E1 & E2). rewrite checked_ok; [|reflexivity|cbn; now apply beh_tr].
      eexists. split; [reflexivity|]. cbn. split; [now rewrite E1|reflexivity].
  - (* VCG *) subst. rewrite R in *. cbn [eval] in Est. injection Est as <-. eexists. split; [reflexivity|].
    cbn. split; [|reflexivity]. unfold using_ac, ac_ev, slope. rewrite R. destruct (a_eval K s) as [g|].
    + rewrite orb_true_r. reflexivity.
    + rewrite orb_false_r. destruct (a_probes K s); reflexivity.
  - (* VCR *) rewrite R in *. cbn [eval] in Est. injection Est as <-. eexists. split; [reflexivity|].
    cbn. split; [|reflexivity]. unfold using_ac, ac_ev, slope. rewrite R. destruct (a_eval K s) as [g|].
    + rewrite orb_true_r. reflexivity.
    + rewrite orb_false_r. destruct (a_probes K s); reflexivity.
  - (* C *) cbn [acg_of loss_of]. destruct (slope_y b a s _ R eq_refl) as (Y1 & Y2). destruct (using_ac K s).
    + eexists. split; [reflexivity|]. cbn. split; [now rewrite Y1|exact Z].
    + destruct (Y2 eq_refl) as (E1 & E2). rewrite checked_ok; [|reflexivity|cbn; now apply beh_tr].
      eexists. split; [reflexivity|]. cbn. split; [now rewrite E1|exact Z].
  - (* TC *) cbn [acg_of loss_of]. destruct (slope_y b a s _ R eq_refl) as (Y1 & Y2). destruct (using_ac K s).
    + eexists. split; [reflexivity|]. cbn. split; [now rewrite Y1|exact Z].
    + destruct (Y2 eq_refl) as (E1 & E2). rewrite checked_ok; [|reflexivity|cbn; now apply beh_tr].
      eexists. split; [reflexivity|]. cbn. split; [now rewrite E1|exact Z].
  - (* VCC *) destruct R as (R1 & R2). rewrite R1 in *. unfold using_ac, ac_ev. rewrite R2, orb_false_r. destruct (a_probes K s).
    + eexists. split; [reflexivity|]. cbn. split; [reflexivity|exact Z].
    + rewrite checked_ok; [|reflexivity|cbn; discriminate]. eexists. split; [reflexivity|]. cbn. split; [reflexivity|exact Z].
  - (* L *) cbn [acg_of loss_of]. destruct (slope_ind false b a s _ R eq_refl) as (Y1 & Y2). destruct (using_ac K s).
    + eexists. split; [reflexivity|]. cbn. rewrite Y1 by reflexivity. split; reflexivity.
    + destruct (Y2 eq_refl) as (E1 & E2). rewrite checked_ok; [|reflexivity|cbn; now apply beh_tr].
      eexists. split; [reflexivity|]. cbn. rewrite E1. split; reflexivity.
  - (* Lc *) cbn [acg_of loss_of]. destruct (slope_ind true b a s _ R eq_refl) as (Y1 & Y2). destruct (using_ac K s).
    + eexists. split; [reflexivity|]. cbn. rewrite Y1 by reflexivity. split; reflexivity.
    + destruct (Y2 eq_refl) as (E1 & E2). rewrite checked_ok; [|reflexivity|cbn; now apply beh_tr].
      eexists. split; [reflexivity|]. cbn. rewrite E1. split; reflexivity.
  - (* K *) unfold ac_ev. rewrite R. eexists. split; [reflexivity|]. cbn. split; [|reflexivity].
    destruct (using_ac K s); destruct op; reflexivity.
  - eexists. split; [reflexivity|]. cbn. split; [reflexivity|exact Z].
Qed.

(* the value of every element *)
Definition acg_all (e : element K) (s sin : aset K) : T :=
  match e with
  | EF _ _ _ inp b a => slope b a s *' (if is_source K inp then loss_of inp else if has_inode K inp then 1 else acg_of inp sin)
  | EH _ _ _ inp b a => -' (1 /' short) *' slope b a s *' (if is_source K inp then loss_of inp else if has_inode K inp then 1 else acg_of inp sin)
  | _ => acg_of e s
  end.
Definition src_all (e : element K) (s sin : aset K) : option T :=
  match e with
  | EF _ _ _ inp b a => if is_source K inp then Some (slope b a s *' acg_of inp sin) else None
  | EH _ _ _ inp b a => if is_source K inp then Some (-' (1 /' short) *' slope b a s *' acg_of inp sin) else None
  | _ => None
  end.
Lemma senses_inp : forall inp, has_iv_probe K inp = true -> senses inp = false.
Proof. intros []; cbn; congruence. Qed.
Lemma state : forall e s sin, ready e s sin -> exists v, ac_state K short leb small jw op (mkael K e s sin) = Some (v, src_all e s sin) /\
  v_acg K v = acg_all e s sin /\ v_loss K v = loss_of e.
Proof.
  intros e s sin R. destruct (senses e) eqn:Es.
  - destruct e as [| | | | | |o1 o2 inp b a|o1 o2 inp b a| | | | | | | | |]; try discriminate Es.
    + destruct (with_m _ s sin R) as (st & Est & Hop). cbn [ready] in R. destruct R as (_ & Rb & P & Ri).
      destruct (do1 inp sin sin (senses_inp inp P) Ri) as (bi & Ebi & vi & Evi & Ga & Gl).
      assert (Z : e_loss K st = 0).
      { destruct op; [exact (loss_eval _ _ (Hop eq_refl))|]. injection Est as <-. reflexivity. }
      unfold ac_state. cbn [ae a_set a_in]. unfold ac_begin at 1. rewrite Est. cbn [bind]. rewrite P, Ebi. cbn [bind]. rewrite Evi. cbn [bind].
      destruct (slope_y b a s _ Rb eq_refl) as (Y1 & Y2).
      assert (C : using_ac K s || checked K (EF K o1 o2 inp b a) (mkab K (elem_begin K short leb op (EF K o1 o2 inp b a))
          (pf1 K (elem_begin K short leb op (EF K o1 o2 inp b a))) 0 (e_loss K st) (e_m K st)) = true).
      { destruct (using_ac K s); [reflexivity|]. cbn [orb]. destruct (Y2 eq_refl) as (E1 & E2). apply checked_ok; [reflexivity|]. cbn. now apply beh_tr. }
      rewrite C. cbn [b_y b_ev b_loss]. unfold elem_begin. cbn [y_tr value_of].
      replace (if using_ac K s then ac_ev K s _ else _) with (slope b a s)
        by (destruct (using_ac K s); [symmetry; now apply Y1|symmetry; apply (proj1 (Y2 eq_refl))]).
      unfold sense. cbn [src_all acg_all loss_of]. rewrite Ga, Gl. replace (1 *' slope b a s) with (slope b a s) by ring.
      destruct (is_source K inp); [|destruct (has_inode K inp)]; eexists; (split; [reflexivity|cbn; split; [ring|exact Z]]).
    + destruct (with_m _ s sin R) as (st & Est & Hop). cbn [ready] in R. destruct R as (_ & Rb & P & Ri & Ho).
      destruct (do1 inp sin sin (senses_inp inp P) Ri) as (bi & Ebi & vi & Evi & Ga & Gl).
      unfold ac_state. cbn [ae a_set a_in]. unfold ac_begin at 1. rewrite Est. cbn [bind]. rewrite P, Ebi. cbn [bind]. rewrite Evi. cbn [bind].
      cbn [y_tr]. destruct (slope_y b a s (if op then y_of K b a else mkfp K 0 0 (lin_value K b)) Rb eq_refl) as (Y1 & Y2). rewrite Ho in Y1, Y2. rewrite Ho.
      assert (C : using_ac K s || checked K (EH K o1 o2 inp b a) (mkab K (y_of K b a) (pf1 K (y_of K b a)) 0 (1 /' short) (e_m K st)) = true).
      { destruct (using_ac K s); [reflexivity|]. cbn [orb]. destruct (Y2 eq_refl) as (E1 & E2). apply checked_ok; [reflexivity|]. cbn. now apply beh_tr. }
      rewrite C. cbn [b_y b_ev b_loss].
      replace (if using_ac K s then ac_ev K s _ else _) with (slope b a s)
        by (destruct (using_ac K s); [symmetry; now apply Y1|symmetry; apply (proj1 (Y2 eq_refl))]).
      unfold sense. cbn [src_all acg_all loss_of]. rewrite Ga, Gl.
      destruct (is_source K inp); [|destruct (has_inode K inp)]; eexists; (split; [reflexivity|cbn; split; [ring|reflexivity]]).
  - destruct (do1 e s sin Es R) as (b & Eb & v & Ev & Ga & Gl). exists v. unfold ac_state. cbn [ae a_set a_in]. rewrite Eb. cbn [bind].
    rewrite Ev. cbn [bind]. destruct e; try discriminate Es; (split; [reflexivity|split; assumption]).
Qed.

(* the current into the first output terminal, as stamped *)
Definition cur_ac (e : element K) (s sin : aset K) (x : Z -> T) : T :=
  match e with
  | EI _ _ _ _ => acg_of e s
  | EV _ _ _ _ => acg_of e s +' loss_of e *' dv K x (outs K e)
  | ELc _ _ _ i1 _ _ _ _ => x i1
  | EK _ _ _ _ _ _ _ _ _ _ => 0
  | EP _ _ _ _ v1 ports => v1 *' dv K x (outs K e) +' lsum K (map (fun q => snd q *' dv K x (fst q)) ports)
  | EVCC _ _ _ _ _ _ _ _ _ _ => acg_of e s *' dv K x (outs K e)
  | _ => acg_all e s sin *' dv K x (ins K e) +' loss_of e *' dv K x (outs K e) +' match src_all e s sin with Some c => c | None => 0 end
  end.

Hypothesis OK : order_ok K short leb.
Hypothesis SM : small 0 = true.
Lemma one_short : short *' (1 /' short) = 1.
Proof. field. apply (short_nz K short leb OK). Qed.
Lemma small_nz : forall v, small v = false -> v <> 0.
Proof. intros v H E. rewrite E, SM in H. discriminate. Qed.
Lemma res_nz : forall b a s, beh_ready b s -> (op = false -> a_probes K s = false -> match b with Lin _ k => k <> 0 | Fun _ _ => True end) -> res_slope b a s <> 0.
Proof.
  intros b a s R N. pose proof (short_nz K short leb OK) as SN. unfold res_slope.
  match goal with |- (if _ && small ?r then _ else _) <> _ => set (r0 := r) end.
  destruct (_ && small r0) eqn:E; [assumption|]. apply andb_false_iff in E. destruct E as [E|E]; [|now apply small_nz].
  apply orb_false_iff in E. destruct E as (E1 & E2). subst r0. unfold slope, beh_ready in *. destruct (a_eval K s); [discriminate|].
  destruct op eqn:Eo.
  - destruct b as [k|f]; [apply (res_value_nz K short leb OK)|]. destruct OK as (_ & B & C & _).
    destruct (leb short (snd (f a))) eqn:F1; cbn [orb]. { intros Z. rewrite Z in F1. congruence. }
    destruct (leb (snd (f a)) (-' short)) eqn:F2. { intros Z. rewrite Z in F2. congruence. }
    destruct (leb 0 (snd (f a))); [exact SN|apply (opp_nz K short leb OK)].
  - destruct b as [k|f]; [now apply N|]. congruence.
Qed.
Lemma src_inp : forall inp s sin, has_iv_probe K inp = true -> src_all inp s sin = None /\ acg_all inp s sin = acg_of inp s.
Proof. intros []; cbn; intros s sin H; try discriminate; auto. Qed.
(* the sensed current *)
Lemma cur_inp : forall inp sin x, has_iv_probe K inp = true -> x 0%Z = 0 ->
  cur_ac inp sin sin x = (if is_source K inp then loss_of inp else if has_inode K inp then 1 else acg_of inp sin) *'
    dv K x (match inp with ELc _ _ _ i1 _ _ _ _ => (i1, 0%Z) | _ => outs K inp end) +' (if is_source K inp then acg_of inp sin else 0).
Proof.
  intros inp sin x P X0. destruct inp; cbn in P; try discriminate P; unfold cur_ac; cbn [is_source has_inode acg_all src_all loss_of outs ins]; try ring.
  unfold dv. cbn [fst snd]. rewrite X0. ring.
Qed.

Lemma amps : forall e s sin x, ready e s sin -> probed_ac e = true ->
  ac_amps K short leb small jw op (mkael K e s sin) x = Some (cur_ac e s sin x).
Proof.
  intros e s sin x R P. destruct (state e s sin R) as (v & Ev & Ga & Gl). unfold ac_amps. rewrite Ev. cbn [bind fst ae]. rewrite Ga, Gl.
  destruct e as [o1 o2 b a|o1 o2 b a|o1 o2 i1 i2 b a|o1 o2 v'|o1 o2 v'|o1 o2 i1 i2 b a|o1 o2 inp b a|o1 o2 inp b a
    |o1 o2 i1 i2 f a w|o1 o2 i1 i2 f a w|o1 o2 b a h p|o1 o2 i1 i2 b a h p|o1 o2 i1 i2 f a w h p|o1 o2 b a h p
    |o1 o2 i1 b a h p|n1 n2 lm a1 a2 h p pf pr|o1 o2 v0 v1 ports]; cbn [probed_ac] in P; try discriminate P;
    unfold cur_ac; cbn [acg_all src_all loss_of outs ins]; f_equal; try ring.
  - destruct inp; try discriminate P; cbn [is_source]; ring.
  - destruct inp; try discriminate P; cbn [is_source]; ring.
Qed.

Lemma law_cur_ac : forall e s sin x, ready e s sin -> x 0%Z = 0 -> law_ac e s sin x (cur_ac e s sin x).
Proof.
  intros e s sin x R X0. revert s sin R. pose proof (short_nz K short leb OK) as SN.
  induction e as [o1 o2 b a|o1 o2 b a|o1 o2 i1 i2 b a|o1 o2 v|o1 o2 v|o1 o2 i1 i2 b a|o1 o2 inp IH b a|o1 o2 inp IH b a
    |o1 o2 i1 i2 f a w|o1 o2 i1 i2 f a w|o1 o2 b a h p|o1 o2 i1 i2 b a h p|o1 o2 i1 i2 f a w h p|o1 o2 b a h p
    |o1 o2 i1 b a h p|n1 n2 lm a1 a2 h p pf pr|o1 o2 v0 v1 ports]; intros s sin R; cbn [ready] in R; destruct R as (_ & R); cbn [law_ac].
  - destruct R as (R & N). pose proof (res_nz b a s R N) as Nz. unfold cur_ac, dv. cbn. field. assumption.
  - unfold cur_ac, dv. cbn. ring.
  - unfold cur_ac, dv. cbn. ring.
  - unfold cur_ac, dv. cbn. field. assumption.
  - reflexivity.
  - unfold cur_ac, dv. cbn. field. assumption.
  - destruct R as (Rb & P & Ri). exists (cur_ac inp sin sin x).
    split; [apply amps; [assumption|]; destruct inp; cbn in P |- *; congruence|]. split; [now apply IH|].
    rewrite (cur_inp inp sin x P X0). unfold cur_ac. cbn [acg_all src_all ins loss_of]. destruct (is_source K inp); ring.
  - destruct R as (Rb & P & Ri & Ho). exists (cur_ac inp sin sin x).
    split; [apply amps; [assumption|]; destruct inp; cbn in P |- *; congruence|]. split; [now apply IH|].
    rewrite (cur_inp inp sin x P X0). unfold cur_ac. cbn [acg_all src_all ins loss_of outs].
    set (u := dv K x (match inp with ELc _ _ _ i1 _ _ _ _ => _ | _ => _ end)). set (q := if is_source K inp then loss_of inp else _).
    unfold dv at 1. cbn [fst snd]. clearbody u q. destruct (is_source K inp); field; assumption.
  - unfold cur_ac, dv. cbn. ring.
  - exists (vcr_value K short (fst (f a))). split; [reflexivity|].
    assert (N : vcr_value K short (fst (f a)) <> 0).
    { unfold vcr_value. destruct (fz K (fst (f a))) eqn:Ez; [exact SN|now apply (fz_nz K)]. }
    unfold cur_ac, dv. cbn. set (r := vcr_value K short (fst (f a))) in *. clearbody r. field. assumption.
  - unfold cur_ac, dv. cbn. ring.
  - unfold cur_ac, dv. cbn. ring.
  - unfold cur_ac, dv. cbn. ring.
  - unfold cur_ac, dv. cbn. destruct (fz K (ind_slope b a s *' jw)) eqn:Ez; [field; assumption|].
    apply (fz_nz K) in Ez. transitivity ((ind_slope b a s *' jw) *' (1 /' (ind_slope b a s *' jw)) *' (x o1 -' x o2)); [|ring].
    set (q := ind_slope b a s *' jw) in *. clearbody q. field. assumption.
  - reflexivity.
  - exact I.
  - unfold cur_ac, dv. cbn. reflexivity.
Qed.

(* what the loaded values take out of each row *)
Lemma slots_leaves_ac : forall e s sin x r, ready e s sin -> x 0%Z = 0 ->
  exists l1 l2, do_slots K short leb small jw op (mkael K e s sin) = Some l1 /\ load_slots_ac K short leb small jw op (mkael K e s sin) = Some l2 /\
    slots_row K l1 x r +' slots_row K l2 x r = leaves_ac e s (cur_ac e s sin x) x r.
Proof.
  intros e s sin x r R X0. destruct (state e s sin R) as (v & Ev & Ga & Gl).
  unfold do_slots, load_slots_ac. rewrite Ev. cbn [bind fst snd ae]. rewrite Ga, Gl.
  destruct e as [o1 o2 b a|o1 o2 b a|o1 o2 i1 i2 b a|o1 o2 v'|o1 o2 v'|o1 o2 i1 i2 b a|o1 o2 inp b a|o1 o2 inp b a
    |o1 o2 i1 i2 f a w|o1 o2 i1 i2 f a w|o1 o2 b a h p|o1 o2 i1 i2 b a h p|o1 o2 i1 i2 f a w h p|o1 o2 b a h p
    |o1 o2 i1 b a h p|n1 n2 lm a1 a2 h p pf pr|o1 o2 v0 v1 ports]; cbn [outs ins];
  lazymatch goal with
  | |- context [EF _ _ _ _ _ _] => idtac | |- context [EH _ _ _ _ _ _] => idtac
  | |- context [EP _ _ _ _ _ _] => idtac
  | _ => do 2 eexists; (split; [reflexivity|]); (split; [reflexivity|]); unfold slots_row; cbn [map fst snd row rstamp]; rewrite ?(lsum_cons' K);
     change (lsum K []) with 0; unfold leaves_ac, cur_ac, dv; cbn [outs ins fst snd acg_all src_all loss_of acg_of]; try ring
  end.
  - destruct (match inp with ELc _ _ _ i1 _ _ _ _ => (i1, 0%Z) | _ => outs K inp end) as [j1 j2] eqn:Ej.
    do 2 eexists. split; [reflexivity|]. split; [reflexivity|]. unfold leaves_ac, cur_ac. cbn [outs ins]. rewrite Ej. unfold dv. cbn [fst snd].
    cbn [loss_of]. destruct (src_all _ _ _); unfold slots_row; cbn [map fst snd row rstamp]; rewrite ?(lsum_cons' K);
     change (lsum K []) with 0; ring.
  - destruct (match inp with ELc _ _ _ i1 _ _ _ _ => (i1, 0%Z) | _ => outs K inp end) as [j1 j2] eqn:Ej.
    do 2 eexists. split; [reflexivity|]. split; [reflexivity|]. unfold leaves_ac, cur_ac. cbn [outs ins]. rewrite Ej. unfold dv. cbn [fst snd].
    cbn [loss_of]. destruct (src_all _ _ _); unfold slots_row; cbn [map fst snd row rstamp]; rewrite ?(lsum_cons' K);
     change (lsum K []) with 0; ring.
  - do 2 eexists. split; [reflexivity|]. split; [reflexivity|]. unfold leaves_ac, cur_ac. cbn [outs acg_all acg_of].
    unfold slots_row. cbn [app map fst snd row rstamp]. rewrite !(lsum_cons' K).
    assert (G : lsum K (map (fun pv : place * T => snd pv *' row K (fst pv) x r -' snd pv *' rstamp K (fst pv) r)
        (map (fun q : Z * Z * T => (PActive o1 o2 (fst (fst q)) (snd (fst q)), snd q)) ports)) =
      (dlt r o1 -' dlt r o2) *' lsum K (map (fun q => snd q *' dv K x (fst q)) ports)).
    { clear. induction ports as [|q l IH]; [cbn; ring|]. cbn [map fst snd row rstamp]. rewrite !(lsum_cons' K), IH. unfold dv. ring. }
    rewrite G. change (lsum K []) with 0.
    set (t := lsum K (map _ ports)). clearbody t. unfold dv. cbn [fst snd]. ring.
Qed.

(* the law gives the current *)
Lemma cancel : forall a u v, a <> 0 -> a *' u = a *' v -> u = v.
Proof. intros a u v N E. transitivity ((a *' u) /' a); [field; assumption|]. rewrite E. field. assumption. Qed.
Lemma law_det : forall e s sin x i i', ready e s sin -> (match e with EK _ _ _ _ _ _ _ _ _ _ => False | _ => True end) ->
  law_ac e s sin x i -> law_ac e s sin x i' -> i = i'.
Proof.
  intros e s sin x i i' R NK L L'. pose proof (short_nz K short leb OK) as SN.
  assert (G : forall a b c, a = b +' short *' i -> a = b +' short *' i' -> c = a -> i = i').
  { intros a b c H H' _. apply (cancel short); [assumption|]. transitivity (a -' b); [rewrite H; ring|rewrite H'; ring]. }
  destruct e as [o1 o2 b a|o1 o2 b a|o1 o2 i1 i2 b a|o1 o2 v|o1 o2 v|o1 o2 i1 i2 b a|o1 o2 inp b a|o1 o2 inp b a
    |o1 o2 i1 i2 f a w|o1 o2 i1 i2 f a w|o1 o2 b a h p|o1 o2 i1 i2 b a h p|o1 o2 i1 i2 f a w h p|o1 o2 b a h p
    |o1 o2 i1 b a h p|n1 n2 lm a1 a2 h p pf pr|o1 o2 v0 v1 ports]; cbn [ready] in R; destruct R as (_ & R); cbn [law_ac] in L, L';
    try contradiction; try (rewrite L, L'; reflexivity).
  - destruct R as (R & N). apply (cancel _ _ _ (res_nz b a s R N)). now rewrite <- L, <- L'.
  - exact (G _ _ _ L L' eq_refl).
  - exact (G _ _ _ L L' eq_refl).
  - destruct L as (j & Ej & _ & L). destruct L' as (j' & Ej' & _ & L'). rewrite Ej in Ej'. injection Ej' as <-. now rewrite L, L'.
  - destruct L as (j & Ej & _ & L). destruct L' as (j' & Ej' & _ & L'). rewrite Ej in Ej'. injection Ej' as <-. exact (G _ _ _ L L' eq_refl).
  - destruct L as (q & Eq & L). destruct L' as (q' & Eq' & L').
    assert (N : q <> 0). { rewrite Eq. destruct (fz K (fst (f a))) eqn:Ez; [exact SN|now apply (fz_nz K)]. }
    rewrite <- Eq in Eq'. subst q'. apply (cancel q); [assumption|].
    transitivity (x o1 -' x o2 -' slope (Fun K f) a s /' q *' w *' (x i1 -' x i2)); [rewrite L; ring|rewrite L'; ring].
  - cbv zeta in L, L'. destruct (fz K (ind_slope b a s *' jw)) eqn:Ez.
    + apply (cancel short); [assumption|]. now rewrite <- L, <- L'.
    + apply (fz_nz K) in Ez. apply (cancel (ind_slope b a s *' jw)); [assumption|].
      transitivity (x o1 -' x o2); [rewrite L; ring|rewrite L'; ring].
Qed.
Lemma leaves_det : forall e s sin x i i' r, ready e s sin -> law_ac e s sin x i -> law_ac e s sin x i' -> leaves_ac e s i x r = leaves_ac e s i' x r.
Proof.
  intros e s sin x i i' r R L L'. destruct e; try (rewrite (law_det _ s sin x i i' R I L L'); reflexivity). reflexivity.
Qed.
End El.

(* ---- declared places ---- *)
(* the nodes of an element *)
Definition ends (e : element K) : list Z :=
  fst (outs K e) :: snd (outs K e) :: fst (ins K e) :: snd (ins K e) ::
  match e with EP _ _ _ _ _ ports => flat_map (fun q => [fst (fst q); snd (fst q)]) ports | _ => [] end.
Definition within (s : Z) (e : element K) : Prop := forall n, In n (ends e) -> (0 <= n <= s)%Z.
(* every pair of rows a value is loaded at was declared, and sources are at existing rows *)
Definition wanted_place (s : Z) (ws : list (Z * Z)) (p : place) : Prop :=
  match p with
  | PInode o1 o2 i1 => wanted s ws o1 i1 /\ wanted s ws o2 i1
  | PShunt o1 o2 => wanted s ws o1 o1 /\ wanted s ws o2 o2 /\ wanted s ws o1 o2
  | PSource o1 o2 => (0 <= o1 <= s)%Z /\ (0 <= o2 <= s)%Z
  | PCouple o1 o2 => wanted s ws o1 o2
  | PActive o1 o2 i1 i2 => wanted s ws o1 i1 /\ wanted s ws o1 i2 /\ wanted s ws o2 i1 /\ wanted s ws o2 i2
  | PSourcePoint m => (0 <= m <= s)%Z
  | PDiagonal m => wanted s ws m m
  | PPoint n1 n2 => wanted s ws n1 n2
  end.
Lemma all_pairs_in : forall l a b, In (a, b) (all_pairs l) -> In a l /\ In b l.
Proof.
  induction l as [|c l IH]; intros a b H; [contradiction|]. cbn in H. apply in_app_or in H. destruct H as [H|H].
  - apply in_map_iff in H. destruct H as (d & E & Hd). injection E as <- <-. split; [now right|now left].
  - destruct (IH _ _ H). split; now right.
Qed.
Lemma iwant_within : forall s e p, (0 <= s)%Z -> within s e -> In p (iwant K e) -> (fst p <= s /\ snd p <= s)%Z.
Proof.
  intros s e p Hs W H. assert (G : forall n, In n (ends e) -> (n <= s)%Z) by (intros n Hn; apply W in Hn; lia).
  unfold iwant in H. unfold ends in G. destruct p as [a b]. cbn [fst snd].
  destruct e; cbn [outs ins fst snd] in *; cbn [iwant outs ins] in H;
    try (destruct (match e with ELc _ _ _ i1 _ _ _ _ => _ | _ => _ end) as [j1 j2] eqn:Ej; cbn [fst snd] in *);
    try contradiction; try (apply all_pairs_in in H; destruct H as (H1 & H2); split; apply G; cbn [In app] in *; tauto);
    repeat (destruct H as [H|H]; [injection H as <- <-; split; apply G; cbn; tauto|]); try contradiction.
Qed.
Definition covered (s : Z) (ws : list (Z * Z)) (l : list (place * T)) : Prop := forall p v, In (p, v) l -> place_in s p /\ wanted_place s ws p.

Lemma port_pairs : forall (ports : list (Z * Z * T)) q o1 o2 (a b : Z), In q ports -> (a = o1 \/ a = o2) -> (b = fst (fst q) \/ b = snd (fst q)) ->
  In (b, a) (all_pairs (o1 :: o2 :: flat_map (fun q => [fst (fst q); snd (fst q)]) ports)).
Proof.
  intros ports q o1 o2 a b Hq Ha Hb. assert (X : In b (flat_map (fun q => [fst (fst q); snd (fst q)]) ports)).
  { apply in_flat_map. exists q. split; [assumption|]. cbn. destruct Hb as [Hb|Hb]; auto. }
  cbn [all_pairs]. destruct Ha as [Ha|Ha]; subst a; apply in_or_app.
  - left. apply in_map_iff. exists b. split; [reflexivity|]. now right.
  - right. apply in_or_app. left. apply in_map_iff. exists b. now split.
Qed.
Lemma covered_cons : forall s ws p v l, place_in s p -> wanted_place s ws p -> covered s ws l -> covered s ws ((p, v) :: l).
Proof. intros s ws p v l H1 H2 H q u [E|Hin]; [injection E as <- <-; now split|now apply (H q u)]. Qed.
Lemma covered_nil : forall s ws, covered s ws []. Proof. intros s ws p v []. Qed.
Lemma covered_app : forall s ws l l', covered s ws l -> covered s ws l' -> covered s ws (l ++ l').
Proof. intros s ws l l' H H' p v Hin. apply in_app_or in Hin. destruct Hin; [now apply (H p v)|now apply (H' p v)]. Qed.
Lemma covered_ports : forall s ws (ports : list (Z * Z * T)) o1 o2,
  (0 <= o1 <= s)%Z -> (0 <= o2 <= s)%Z -> (forall q, In q ports -> (0 <= fst (fst q) <= s)%Z /\ (0 <= snd (fst q) <= s)%Z) ->
  incl (all_pairs (o1 :: o2 :: flat_map (fun q => [fst (fst q); snd (fst q)]) ports)) ws ->
  covered s ws (map (fun q => (PActive o1 o2 (fst (fst q)) (snd (fst q)), snd q)) ports).
Proof.
  intros s ws ports o1 o2 H1 H2 Hp Hw p v Hin. apply in_map_iff in Hin. destruct Hin as (q & E & Hq). injection E as <- <-.
  destruct (Hp q Hq) as (P1 & P2). cbn [place_in wanted_place]. unfold node_in. split; [tauto|].
  unfold wanted; repeat split; intros _ _; right; right; apply Hw; apply (port_pairs ports q); auto.
Qed.

Ltac inb G := apply G; cbn [In]; tauto.
Ltac want G H := unfold wanted; intros ? ?;
  first [left; split; [reflexivity|inb G] | right; left; apply H; cbn; tauto | right; right; apply H; cbn; tauto].
Ltac cover G H := repeat first [apply covered_nil | apply covered_cons; [cbn [place_in]; unfold node_in; repeat split; inb G
   | cbn [wanted_place]; lazymatch goal with |- wanted _ _ _ _ => want G H | |- wanted _ _ _ _ /\ _ => repeat split; want G H | |- _ => repeat split; inb G end | ]].
Lemma ports_within : forall s (ports : list (Z * Z * T)), (forall n, In n (flat_map (fun q => [fst (fst q); snd (fst q)]) ports) -> (0 <= n <= s)%Z) ->
  forall q, In q ports -> (0 <= fst (fst q) <= s)%Z /\ (0 <= snd (fst q) <= s)%Z.
Proof. intros s ports H q Hq. split; apply H; apply in_flat_map; exists q; (split; [assumption|]); cbn; auto. Qed.
Lemma tr_covered : forall short leb s ws e l, within s e -> incl (iwant K e) ws -> slots K short leb e = Some l -> covered s ws l.
Proof.
  intros short leb s ws e l W Hw E. unfold slots in E. destruct (eval K short leb e) as [st|]; [|discriminate]. cbn [bind] in E.
  assert (G := W). unfold within, ends in G.
  destruct e; cbn [outs ins fst snd] in *; unfold iwant in Hw; cbn [outs ins] in Hw;
    try (destruct (match e with ELc _ _ _ i1 _ _ _ _ => _ | _ => _ end) as [j1 j2] eqn:Ej; cbn [fst snd] in *);
    lazymatch type of E with
    | (let* _ := _ in _) = _ =>
        destruct (mut_c0 _ _ _ _ _ _) as [mf|]; [|discriminate]; destruct (mut_c0 _ _ _ _ _ _) as [mr|]; [|discriminate]; cbn [bind] in E; injection E as <-; cover G Hw
    | Some (_ ++ _) = _ => idtac
    | _ => injection E as <-; cover G Hw
    end.
  injection E as <-. apply covered_cons; [cbn; unfold node_in; split; inb G| |apply covered_cons; [cbn; unfold node_in; split; inb G|cbn; split; inb G|]].
  - cbn. repeat split; try (unfold wanted; intros _ _; left; split; [reflexivity|inb G]).
    unfold wanted. intros _ _. right. right. apply Hw. cbn. now left.
  - apply covered_ports; [inb G|inb G| |assumption]. apply ports_within. intros m Hm. apply G. cbn. tauto.
Qed.
Section Cov.
Variable short : T.
Variable leb : T -> T -> bool.
Variable small : T -> bool.
Variable jw : T.
Variable op : bool.
Lemma do_covered : forall s ws x l, within s (ae K x) -> incl (iwant K (ae K x)) ws -> do_slots K short leb small jw op x = Some l -> covered s ws l.
Proof.
  intros s ws [e st si] l W Hw E. unfold do_slots in E. destruct (ac_state _ _ _ _ _ _ _) as [p|]; [|discriminate]. cbn [bind ae] in *.
  assert (G := W). unfold within, ends in G.
  destruct e; cbn [outs ins fst snd] in *; unfold iwant in Hw; cbn [outs ins] in Hw;
    try (destruct (match e with ELc _ _ _ i1 _ _ _ _ => _ | _ => _ end) as [j1 j2] eqn:Ej; cbn [fst snd] in * );
    try (injection E as <-; apply covered_nil); destruct (snd p); injection E as <-; cover G Hw.
Qed.
Lemma ac_covered : forall s ws x l, within s (ae K x) -> incl (iwant K (ae K x)) ws -> load_slots_ac K short leb small jw op x = Some l -> covered s ws l.
Proof.
  intros s ws [e st si] l W Hw E. unfold load_slots_ac in E. destruct (ac_state _ _ _ _ _ _ _) as [p|]; [|discriminate]. cbn [bind ae] in *.
  assert (G := W). unfold within, ends in G.
  destruct e; cbn [outs ins fst snd] in *; unfold iwant in Hw; cbn [outs ins] in Hw;
    try (destruct (match e with ELc _ _ _ i1 _ _ _ _ => _ | _ => _ end) as [j1 j2] eqn:Ej; cbn [fst snd] in * );
    injection E as <-;
    lazymatch goal with |- covered _ _ (_ :: map _ _) => idtac | _ => cover G Hw end.
  apply covered_cons; [cbn; unfold node_in; split; inb G| |].
  - cbn. repeat split; try (unfold wanted; intros _ _; left; split; [reflexivity|inb G]).
    unfold wanted. intros _ _. right. right. apply Hw. cbn. now left.
  - apply covered_ports; [inb G|inb G| |assumption]. apply ports_within. intros m Hm. apply G. cbn. tauto.
Qed.
End Cov.

(* ---- loading and solving ---- *)
Ltac kr := lazymatch goal with |- @eq _ ?a ?b => change (@eq (F K) a b) end; apply sub_eq; ring.

(* a system with nonzero diagonal factors has only one solution *)
Lemma LU_zero : forall (D : data A) d, wf D -> diag_ok K D ->
  (forall r, (1 <= r <= size D)%Z -> fsum K 1 (size D + 1) (fun c => LU K D r c *' d c) = 0) ->
  forall r, (1 <= r <= size D)%Z -> d r = 0.
Proof.
  intros D d Hw Dg H.
  set (y := fun k => fsum K 1 (size D + 1) (fun c => Uf K D k c *' d c)).
  assert (Ly : forall r, (1 <= r <= size D)%Z -> fsum K 1 (r + 1) (fun k => Lf K D r k *' y k) = 0).
  { intros r Hr. rewrite <- (H r Hr), <- (L_row K D y r Hr).
    rewrite (fsum_ext K 1 (size D + 1) (fun c => LU K D r c *' d c) (fun c => fsum K 1 (size D + 1) (fun k => Lf K D r k *' (Uf K D k c *' d c)))).
    - rewrite fsum_swap. apply fsum_ext. intros k Hk. rewrite fsum_scale. reflexivity.
    - intros c Hc. unfold LU. rewrite <- fsum_scale_r. apply fsum_ext. intros; ring. }
  assert (Y0 : forall n r, (1 <= r <= size D)%Z -> (r < Z.of_nat n)%Z -> y r = 0).
  { induction n as [|n IH]; intros r Hr Hn; [lia|]. specialize (Ly r Hr). rewrite fsum_snoc in Ly by lia.
    rewrite (fsum_zero K 1 r) in Ly. 2: { intros k Hk. rewrite (IH k) by lia. ring. }
    assert (E : Lf K D r r = ext D r r) by (unfold Lf; now replace (r <=? r)%Z with true by lia).
    specialize (Dg r Hr). rewrite E in Ly. transitivity ((ext D r r *' y r) /' ext D r r); [field; exact Dg|].
    replace (ext D r r *' y r) with 0; [field; exact Dg|]. rewrite <- Ly. ring. }
  assert (D0 : forall n r, (1 <= r <= size D)%Z -> (size D - r < Z.of_nat n)%Z -> d r = 0).
  { induction n as [|n IH]; intros r Hr Hn; [lia|].
    assert (Yr : y r = 0) by (apply (Y0 (S (Z.to_nat r))); lia). unfold y in Yr. rewrite (U_row K D d r Hr) in Yr.
    rewrite (fsum_zero K (r + 1)%Z) in Yr. 2: { intros k Hk. rewrite (IH k) by lia. change (ext D r k *' 0 = 0). ring. }
    rewrite <- Yr. ring. }
  intros r Hr. apply (D0 (S (Z.to_nat (size D - r)))); lia.
Qed.
Section Load.
Variable D0 : data A.
Variable mp : T.
Hypothesis HD0 : wf D0.
Notation sz := (size D0).

Lemma ac_place_spec : forall p d M rh, Sys A D0 mp M -> place_ok A D0 p ->
  exists M' rh', ac_place A p d M rh = Some (M', rh') /\ Sys A D0 mp M' /\ rh' 0%Z = rh 0%Z /\
    forall r, (1 <= r <= sz)%Z -> rh' r = rh r +' d *' rstamp K p r /\
      forall c, (1 <= c <= sz)%Z -> ext (aa M') r c = ext (aa M) r c +' d *' mstamp K p r c.
Proof.
  intros p d M rh HS Hp.
  assert (Hz : size (aa M) = sz) by (destruct HS as (_ & (Hz & _) & _); exact Hz).
  assert (Z0 : forall (u : T), u = u +' d *' 0) by (intros; kr).
  assert (LD : forall x, load_ok A D0 x -> exists M', do_load A x M = Some M' /\ Sys A D0 mp M' /\
    forall r c, (1 <= r <= sz)%Z -> (1 <= c <= sz)%Z -> ext (aa M') r c = ext (aa M) r c +' @stamp K A (fun v => v) x r c).
  { intros x Hx. destruct (do_load_sys A D0 mp x M HS Hx) as (M' & E & S' & _). exists M'. split; [assumption|]. split; [assumption|].
    intros r c Hr Hc. now apply (do_load_ext K D0 mp x M M' r c E HS Hx). }
  assert (HA : forall k v (r : Z -> T), (0 <= k <= sz)%Z -> exists r', add_i A M k v r = Some r' /\ r' 0%Z = r 0%Z).
  { intros k v r0 Hk. unfold add_i. destruct (Z.eqb_spec k 0); [now eexists|]. rewrite vget_in by lia. cbn [bind].
    rewrite vset_in by lia. eexists. split; [reflexivity|]. unfold upd. destruct (Z.eqb_spec 0 k); [lia|reflexivity]. }
  assert (HB : forall k v (r : Z -> T), (0 <= k <= sz)%Z -> exists r', sub_i A M k v r = Some r' /\ r' 0%Z = r 0%Z).
  { intros k v r0 Hk. unfold sub_i. destruct (Z.eqb_spec k 0); [now eexists|]. rewrite vget_in by lia. cbn [bind].
    rewrite vset_in by lia. eexists. split; [reflexivity|]. unfold upd. destruct (Z.eqb_spec 0 k); [lia|reflexivity]. }
  destruct p as [o1 o2 i1|o1 o2|o1 o2|o1 o2|o1 o2 i1 i2|m|m|n1 n2]; cbn [place_ok rstamp mstamp ac_place] in *.
  - destruct Hp as (H1 & H2).
    destruct (do_load_sys A D0 mp (LCouple o1 i1 (nsub A (n0 A) d)) M HS H1) as (M1 & E1 & S1 & _).
    destruct (do_load_sys A D0 mp (LCouple o2 i1 d) M1 S1 H2) as (M2 & E2 & S2 & _).
    rewrite E1. cbn [bind]. rewrite E2. cbn [bind]. exists M2, rh. split; [reflexivity|]. split; [assumption|]. split; [reflexivity|].
    intros r Hr. split; [apply Z0|]. intros c Hc.
    rewrite (do_load_ext K D0 mp _ _ _ r c E2 S1 H2 Hr Hc), (do_load_ext K D0 mp _ _ _ r c E1 HS H1 Hr Hc).
    cbn [stamp nsub n0 exA]. kr.
  - destruct (LD (LSym o1 o2 d) Hp) as (M1 & E1 & S1 & V). rewrite E1. cbn [bind]. exists M1, rh. split; [reflexivity|]. split; [assumption|]. split; [reflexivity|].
    intros r Hr. split; [apply Z0|]. intros c Hc. rewrite (V r c Hr Hc). cbn [stamp]. reflexivity.
  - destruct Hp as (H1 & H2). destruct (HA o2 d rh H2) as (r1 & E1 & Q1). rewrite E1. cbn [bind].
    destruct (HB o1 d r1 H1) as (r2 & E2 & Q2). rewrite E2. cbn [bind]. exists M, r2. split; [reflexivity|]. split; [assumption|]. split; [congruence|].
    intros r Hr. split; [|intros; apply Z0]. rewrite (sub_i_val K D0 _ _ _ _ _ r Hz H1 E2), (add_i_val K D0 _ _ _ _ _ r Hz H2 E1) by lia. kr.
  - destruct (LD (LCouple o1 o2 d) Hp) as (M1 & E1 & S1 & V). rewrite E1. cbn [bind]. exists M1, rh. split; [reflexivity|]. split; [assumption|]. split; [reflexivity|].
    intros r Hr. split; [apply Z0|]. intros c Hc. rewrite (V r c Hr Hc). cbn [stamp]. kr.
  - destruct (LD (LAsym o1 o2 i1 i2 d) Hp) as (M1 & E1 & S1 & V). rewrite E1. cbn [bind]. exists M1, rh. split; [reflexivity|]. split; [assumption|]. split; [reflexivity|].
    intros r Hr. split; [apply Z0|]. intros c Hc. rewrite (V r c Hr Hc). cbn [stamp]. reflexivity.
  - destruct (HA m d rh Hp) as (r1 & E1 & Q1). rewrite E1. cbn [bind]. exists M, r1. split; [reflexivity|]. split; [assumption|]. split; [assumption|].
    intros r Hr. split; [|intros; apply Z0]. now rewrite (add_i_val K D0 _ _ _ _ _ r Hz Hp E1) by lia.
  - destruct (LD (LDiag m d) Hp) as (M1 & E1 & S1 & V). rewrite E1. cbn [bind]. exists M1, rh. split; [reflexivity|]. split; [assumption|]. split; [reflexivity|].
    intros r Hr. split; [apply Z0|]. intros c Hc. rewrite (V r c Hr Hc). cbn [stamp]. reflexivity.
  - destruct (LD (LPoint n1 n2 d) Hp) as (M1 & E1 & S1 & V). rewrite E1. cbn [bind]. exists M1, rh. split; [reflexivity|]. split; [assumption|]. split; [reflexivity|].
    intros r Hr. split; [apply Z0|]. intros c Hc. rewrite (V r c Hr Hc). cbn [stamp]. reflexivity.
Qed.

(* the coefficient at (r, c) and the right hand side of row r of what is loaded *)
Definition coef (l : list (place * T)) (r c : Z) : T := lsum K (map (fun pv => snd pv *' mstamp K (fst pv) r c) l).
Definition rhs_of (l : list (place * T)) (r : Z) : T := lsum K (map (fun pv => snd pv *' rstamp K (fst pv) r) l).
Lemma lsum_app : forall l l', lsum K (l ++ l') = lsum K l +' lsum K l'.
Proof.
  induction l as [|a l IH]; intros l'; [change (lsum K []) with 0; cbn [app]; kr|]. cbn [app]. rewrite !(lsum_cons' K), IH. kr.
Qed.
Lemma coef_app : forall l l' r c, coef (l ++ l') r c = coef l r c +' coef l' r c.
Proof. intros. unfold coef. rewrite map_app. apply lsum_app. Qed.
Lemma rhs_app : forall l l' r, rhs_of (l ++ l') r = rhs_of l r +' rhs_of l' r.
Proof. intros. unfold rhs_of. rewrite map_app. apply lsum_app. Qed.

Lemma ac_puts : forall l M rh, Sys A D0 mp M -> (forall p v, In (p, v) l -> place_ok A D0 p) ->
  exists M' rh', foldM (ac_put A) l (M, rh) = Some (M', rh') /\ Sys A D0 mp M' /\ rh' 0%Z = rh 0%Z /\
    forall r, (1 <= r <= sz)%Z -> rh' r = rh r +' rhs_of l r /\
      forall c, (1 <= c <= sz)%Z -> ext (aa M') r c = ext (aa M) r c +' coef l r c.
Proof.
  induction l as [|[p d] l IH]; intros M rh HS Hl.
  - exists M, rh. split; [reflexivity|]. split; [assumption|]. split; [reflexivity|]. intros r Hr. unfold rhs_of, coef. cbn [map]. change (lsum K []) with 0.
    split; [kr|]. intros. kr.
  - destruct (ac_place_spec p d M rh HS (Hl p d (or_introl eq_refl))) as (M1 & r1 & E1 & S1 & Q1 & V1).
    destruct (IH M1 r1 S1 (fun q v H => Hl q v (or_intror H))) as (M2 & r2 & E2 & S2 & Q2 & V2).
    exists M2, r2. cbn [foldM]. unfold ac_put at 1. cbn [fst snd]. rewrite E1. cbn [bind]. split; [assumption|]. split; [assumption|]. split; [congruence|].
    intros r Hr. destruct (V1 r Hr) as (A1 & B1). destruct (V2 r Hr) as (A2 & B2). unfold rhs_of, coef in *. cbn [map fst snd]. rewrite (lsum_cons' K). split.
    + rewrite A2, A1. kr.
    + intros c Hc. rewrite (B2 c Hc), (B1 c Hc), (lsum_cons' K). kr.
Qed.

(* one frequency *)
Lemma ac_solve_spec : forall (l1 l2 : list (place * T)) M, Sys A D0 mp M -> mp <> 0 -> (forall p v, In (p, v) (l1 ++ l2) -> place_ok A D0 p) ->
  exists D x, ac_solve A l1 l2 M = Some (D, x) /\ Sys A D0 mp (mkmat D (lu M) (changed M) (min_pivot M)) /\ x 0%Z = 0 /\
    exists z, (forall r, (1 <= r <= sz)%Z -> (z r = true <-> coef (l1 ++ l2) r r =
        fsum K 1 r (fun k => lower K (dense K D) r k *' upper1 K (dense K D) k r))) /\
      (forall r, (1 <= r <= sz)%Z -> tot K sz (fun c => (coef (l1 ++ l2) r c +' (if (r =? c)%Z then (if z r then mp else 0) else 0)) *' x c) = rhs_of (l1 ++ l2) r) /\
      forall x', (forall r, (1 <= r <= sz)%Z -> tot K sz (fun c => (coef (l1 ++ l2) r c +' (if (r =? c)%Z then (if z r then mp else 0) else 0)) *' x' c) = rhs_of (l1 ++ l2) r) ->
        forall r, (1 <= r <= sz)%Z -> x' r = x r.
Proof.
  intros l1 l2 M HS Hmp Hl. unfold ac_solve.
  set (M0 := mkmat (zero A (aa M)) (lu M) (changed M) (min_pivot M)).
  assert (S0 : Sys A D0 mp M0).
  { destruct HS as ((Hw & Sh) & Sh0 & Em). split; [split; [exact Hw|exact Sh]|]. split; [exact Sh0|exact Em]. }
  assert (E0 : forall r c, (1 <= r <= sz)%Z -> (1 <= c <= sz)%Z -> ext (aa M0) r c = 0).
  { intros r c Hr Hc. destruct S0 as ((Hw & _) & _). destruct (env_b (aa M0) r c) eqn:B.
    - apply env_b_spec in B. rewrite ext_env by assumption. reflexivity.
    - rewrite ext_out; [reflexivity|]. intros X. apply env_b_spec in X. congruence. }
  destruct (ac_puts l1 M0 (fun _ => 0) S0 (fun p v H => Hl p v (in_or_app _ _ _ (or_introl H)))) as (M1 & r1 & F1 & S1 & Q1 & V1).
  destruct (ac_puts l2 M1 r1 S1 (fun p v H => Hl p v (in_or_app _ _ _ (or_intror H)))) as (M2 & r2 & F2 & S2 & Q2 & V2).
  change (n0 A) with 0. rewrite F1. cbn [bind]. rewrite F2. cbn [bind fst snd].
  assert (Em : min_pivot M2 = mp) by (destruct S2 as (_ & _ & E); exact E). rewrite Em.
  assert (Wf2 : wf (aa M2)) by (destruct S2 as ((W & _) & _); exact W).
  assert (Sz2 : size (aa M2) = sz) by (destruct S2 as (_ & (E & _) & _); exact E).
  destruct (ip_lu_spec A (fun a w => eq_refl) mp (aa M2) Wf2) as (D & ED & ShD & Rec).
  rewrite ED. cbn [bind].
  assert (WD : wf D) by (apply (shape_wf A _ _ ShD); exact Wf2).
  assert (SzD : size D = sz) by (destruct ShD; congruence).
  assert (ShD' : shape D (aa M2)) by (destruct ShD; split; congruence).
  pose proof (rec_diag_ok K _ _ _ WD Hmp Rec) as Dg.
  destruct (fbsub1_solves K D r2 WD Dg) as (x & Ex & X0 & Sol). rewrite Ex. cbn [bind].
  destruct (pivots K (aa M2) mp D WD ShD' Hmp Rec) as (z & Hz & HZ). rewrite SzD in *.
  exists D, x. split; [reflexivity|]. split.
  { destruct HS as ((Hw & Sh) & Sh0 & Em'). destruct S2 as (_ & Sh2 & _). split; [split; [exact WD|]|].
    - cbn. destruct Sh, Sh0, Sh2, ShD. split; congruence.
    - split; [|exact Em']. cbn. destruct Sh2, ShD. split; congruence. }
  split; [congruence|]. exists z.
  assert (C : forall r c, (1 <= r <= sz)%Z -> (1 <= c <= sz)%Z -> dense K (aa M2) r c = coef (l1 ++ l2) r c).
  { intros r c Hr Hc. rewrite (dense_ext K) by (assumption || lia). rewrite (proj2 (V2 r Hr) c Hc), (proj2 (V1 r Hr) c Hc), E0 by assumption.
    rewrite coef_app. kr. }
  assert (Co : forall r c, (1 <= r <= sz)%Z -> (1 <= c <= sz)%Z -> coef (l1 ++ l2) r c +' (if (r =? c)%Z then (if z r then mp else 0) else 0) = LU K D r c).
  { intros r c Hr Hc. rewrite HZ by lia. unfold Matrix_Main.solved. rewrite C by lia. destruct (r =? c)%Z; cbn [andb]; [destruct (z r)|]; reflexivity. }
  assert (G : forall r, (1 <= r <= sz)%Z -> tot K sz (fun c => (coef (l1 ++ l2) r c +' (if (r =? c)%Z then (if z r then mp else 0) else 0)) *' x c) = rhs_of (l1 ++ l2) r).
  { intros r Hr. transitivity (r2 r).
    + rewrite <- (Sol r Hr). unfold tot. apply fsum_ext. intros c Hc. now rewrite Co by lia.
    + rewrite (proj1 (V2 r Hr)), (proj1 (V1 r Hr)), rhs_app. kr. }
  split; [|split; [exact G|]].
  - intros r Hr. rewrite (Hz r Hr). unfold zero_pivot. rewrite C by assumption. reflexivity.
  - intros x' Hx' r Hr. assert (E : x' r -' x r = 0).
    { apply (LU_zero D (fun c => x' c -' x c) WD Dg); rewrite SzD; [|assumption]. intros q Hq.
      transitivity (tot K sz (fun c => (coef (l1 ++ l2) q c +' (if (q =? c)%Z then (if z q then mp else 0) else 0)) *' x' c) -'
        tot K sz (fun c => (coef (l1 ++ l2) q c +' (if (q =? c)%Z then (if z q then mp else 0) else 0)) *' x c)).
      - rewrite <- tot_sub. unfold tot. apply fsum_ext. intros c Hc. rewrite <- Co by lia. ring.
      - rewrite (Hx' q Hq), (G q Hq). ring. }
    transitivity (x r +' (x' r -' x r)); [ring|]. rewrite E. ring.
Qed.
End Load.

(* ---- the circuit ---- *)
Section Sw.
Variable short : T.
Variable leb : T -> T -> bool.
Variable small : T -> bool.
Variable op : bool.
Hypothesis OK : order_ok K short leb.
Hypothesis SM : small 0 = true.
Definition el_ready (q : T * ael K) : Prop := ready short leb op (ae K (snd q)) (a_set K (snd q)) (a_in K (snd q)).
(* the sum over the elements of what leaves row r *)
Definition sum_leaves_ac (jw : T) (xs : list (T * ael K)) (I : list T) (x : Z -> T) (r : Z) : T :=
  lsum K (map (fun q => fst (fst q) *' leaves_ac jw op (ae K (snd (fst q))) (a_set K (snd (fst q))) (snd q) x r) (combine xs I)).
Lemma slots_sum : forall s l x r, x 0%Z = 0 -> (forall p v, In (p, v) l -> place_in s p) ->
  tot K s (fun c => coef l r c *' x c) -' rhs_of l r = slots_row K l x r.
Proof.
  intros s l x r X0. unfold coef, rhs_of, slots_row. induction l as [|[p v] l IH]; intros H.
  - cbn [map]. change (lsum K []) with 0. rewrite tot_scale. ring.
  - cbn [map fst snd]. rewrite !(lsum_cons' K), <- IH by (intros q u Hq; apply (H q u); now right).
    rewrite <- (row_sum K s p x r X0) by (apply (H p v); now left).
    transitivity (v *' tot K s (fun c => mstamp K p r c *' x c) +' tot K s (fun c => lsum K (map (fun pv => snd pv *' mstamp K (fst pv) r c) l) *' x c)
       -' (v *' rstamp K p r +' lsum K (map (fun pv => snd pv *' rstamp K (fst pv) r) l))); [|ring].
    rewrite <- tot_scale, <- tot_add. f_equal. apply tot_ext. intros c. rewrite (lsum_cons' K). ring.
Qed.
Lemma slots_row_app : forall l l' x r, slots_row K (l ++ l') x r = slots_row K l x r +' slots_row K l' x r.
Proof. intros. unfold slots_row. rewrite map_app. apply lsum_app. Qed.
Lemma slots_row_scale : forall m l x r, slots_row K (map (fun pv => (fst pv, m *' snd pv)) l) x r = m *' slots_row K l x r.
Proof.
  intros m l x r. unfold slots_row. induction l as [|[p v] l IH]; cbn [map fst snd]; [change (lsum K []) with 0; ring|].
  rewrite !(lsum_cons' K), IH. ring.
Qed.
Lemma covered_scale : forall s ws m l, covered s ws l -> covered s ws (map (fun pv => (fst pv, m *' snd pv)) l).
Proof.
  intros s ws m l H p v Hin. apply in_map_iff in Hin. destruct Hin as ([p' v'] & E & Hin). injection E as <- <-. now apply (H p' v').
Qed.
Lemma slots_defined : forall jw e s sin, ready short leb op e s sin ->
  exists l1 l2, do_slots K short leb small jw op (mkael K e s sin) = Some l1 /\ load_slots_ac K short leb small jw op (mkael K e s sin) = Some l2 /\
    forall x r, x 0%Z = 0 -> slots_row K l1 x r +' slots_row K l2 x r = leaves_ac jw op e s (cur_ac short leb small jw op e s sin x) x r.
Proof.
  intros jw e s sin R.
  destruct (slots_leaves_ac short leb small jw op e s sin (fun _ => 0) 0%Z R eq_refl) as (l1 & l2 & E1 & E2 & _).
  exists l1, l2. split; [assumption|]. split; [assumption|]. intros x r X0.
  destruct (slots_leaves_ac short leb small jw op e s sin x r R X0) as (k1 & k2 & F1 & F2 & F). congruence.
Qed.
Lemma all_defined : forall jw s ws xs, Forall el_ready xs -> Forall (fun q => within s (ae K (snd q)) /\ incl (iwant K (ae K (snd q))) ws) xs ->
  exists l1 l2, all_slots K (do_slots K short leb small jw op) xs = Some l1 /\ all_slots K (load_slots_ac K short leb small jw op) xs = Some l2 /\
    covered s ws (l1 ++ l2) /\
    forall x, x 0%Z = 0 -> exists I, length I = length xs /\
      (forall q i, In (q, i) (combine xs I) -> law_ac short leb small jw op (ae K (snd q)) (a_set K (snd q)) (a_in K (snd q)) x i /\
        (probed_ac (ae K (snd q)) = true -> ac_amps K short leb small jw op (snd q) x = Some i)) /\
      forall r, slots_row K (l1 ++ l2) x r = sum_leaves_ac jw xs I x r.
Proof.
  intros jw s ws xs R. induction R as [|[m [e st sin]] xs Re R IH]; intros W.
  - exists [], []. split; [reflexivity|]. split; [reflexivity|]. split; [apply covered_nil|]. intros x X0. exists [].
    split; [reflexivity|]. split; [intros q i []|]. intros r. reflexivity.
  - inversion W as [|? ? (We & Wi) W']; subst. destruct (IH W') as (l1 & l2 & E1 & E2 & C & H). unfold el_ready in Re. cbn [snd ae a_set a_in] in *.
    destruct (slots_defined jw e st sin Re) as (k1 & k2 & F1 & F2 & F). cbn [all_slots]. rewrite E1, E2, F1, F2. cbn [bind].
    eexists. eexists. split; [reflexivity|]. split; [reflexivity|]. split.
    + apply covered_app; apply covered_app.
      * apply covered_scale. now apply (do_covered short leb small jw op s ws (mkael K e st sin)).
      * intros p v Hin. apply (C p v). apply in_or_app. now left.
      * apply covered_scale. now apply (ac_covered short leb small jw op s ws (mkael K e st sin)).
      * intros p v Hin. apply (C p v). apply in_or_app. now right.
    + intros x X0. destruct (H x X0) as (I & LI & HI & HS). exists (cur_ac short leb small jw op e st sin x :: I).
      split; [cbn; now rewrite LI|]. split.
      * intros q i [E|Hin]; [|now apply HI]. injection E as <- <-. cbn [snd ae a_set a_in]. split; [now apply law_cur_ac|]. intros P. now apply amps.
      * intros r. unfold sum_leaves_ac in *. cbn [combine map fst snd ae a_set]. rewrite (lsum_cons' K), <- (HS r), <- (F x r X0).
        rewrite !slots_row_app, !slots_row_scale. ring.
Qed.

Lemma freq_spec : forall D0 mp jw ws xs M, wf D0 -> Sys A D0 mp M -> mp <> 0 ->
  (forall p, wanted_place (size D0) ws p -> place_ok A D0 p) ->
  Forall el_ready xs -> Forall (fun q => within (size D0) (ae K (snd q)) /\ incl (iwant K (ae K (snd q))) ws) xs ->
  exists M' x, ac_freq K short leb small op jw xs M = Some (M', x) /\ Sys A D0 mp M' /\ x 0%Z = 0 /\
    exists l1 l2 z I, all_slots K (do_slots K short leb small jw op) xs = Some l1 /\ all_slots K (load_slots_ac K short leb small jw op) xs = Some l2 /\
      (forall r, (1 <= r <= size D0)%Z -> (z r = true <-> coef (l1 ++ l2) r r =
        fsum K 1 r (fun k => lower K (dense K (aa M')) r k *' upper1 K (dense K (aa M')) k r))) /\
      length I = length xs /\
      (forall q i, In (q, i) (combine xs I) -> law_ac short leb small jw op (ae K (snd q)) (a_set K (snd q)) (a_in K (snd q)) x i /\
        (probed_ac (ae K (snd q)) = true -> ac_amps K short leb small jw op (snd q) x = Some i)) /\
      (forall r, (1 <= r <= size D0)%Z -> (if z r then mp else 0) *' x r +' sum_leaves_ac jw xs I x r = 0) /\
      forall x' I', x' 0%Z = 0 -> length I' = length xs ->
        (forall q i, In (q, i) (combine xs I') -> law_ac short leb small jw op (ae K (snd q)) (a_set K (snd q)) (a_in K (snd q)) x' i) ->
        (forall r, (1 <= r <= size D0)%Z -> (if z r then mp else 0) *' x' r +' sum_leaves_ac jw xs I' x' r = 0) ->
        forall r, (1 <= r <= size D0)%Z -> x' r = x r.
Proof.
  intros D0 mp jw ws xs M HD HS Hmp Hok R W. destruct (all_defined jw (size D0) ws xs R W) as (l1 & l2 & E1 & E2 & C & H).
  destruct (ac_solve_spec D0 mp l1 l2 M HS Hmp) as (D & x & Es & S' & X0 & z & Hz & Hsol & Huniq).
  { intros p v Hin. apply Hok. now apply (C p v). }
  unfold ac_freq. rewrite E1, E2. cbn [bind]. rewrite Es. cbn [bind fst snd]. eexists. exists x. split; [reflexivity|]. split; [assumption|]. split; [assumption|].
  destruct (H x X0) as (I & LI & HI & HK). exists l1, l2, z, I. split; [reflexivity|]. split; [reflexivity|]. split; [exact Hz|]. split; [assumption|]. split; [assumption|].
  assert (Two : forall u r, u 0%Z = 0 -> (1 <= r <= size D0)%Z -> (if z r then mp else 0) *' u r +' slots_row K (l1 ++ l2) u r =
    tot K (size D0) (fun c => (coef (l1 ++ l2) r c +' (if (r =? c)%Z then if z r then mp else 0 else 0)) *' u c) -' rhs_of (l1 ++ l2) r).
  { intros u r U0 Hr. rewrite <- (slots_sum (size D0) (l1 ++ l2) u r U0) by (intros p v Hin; now apply (C p v)).
    transitivity ((if z r then mp else 0) *' tot K (size D0) (fun c => dlt c r *' u c) +' tot K (size D0) (fun c => coef (l1 ++ l2) r c *' u c) -' rhs_of (l1 ++ l2) r).
    { rewrite tot_delta; [ring|assumption|unfold node_in; lia]. }
    rewrite <- tot_scale, <- tot_add. f_equal. apply tot_ext. intros c. unfold delta. rewrite (Z.eqb_sym c r). destruct (r =? c)%Z; ring. }
  split.
  - intros r Hr. rewrite <- (HK r), (Two x r X0 Hr), (Hsol r Hr). ring.
  - intros x' I' X0' LI' HL' HK' r Hr. apply (Huniq x'); [|assumption]. clear r Hr. intros r Hr.
    destruct (H x' X0') as (I2 & LI2 & HI2 & HK2).
    assert (E : sum_leaves_ac jw xs I' x' r = sum_leaves_ac jw xs I2 x' r).
    { clear - OK SM R LI' HL' LI2 HI2. unfold sum_leaves_ac. revert I' I2 LI' HL' LI2 HI2. induction R as [|q xs Rq R' IH]; intros [|i I'] [|i2 I2] LI' HL' LI2 HI2; try discriminate; [reflexivity|].
      cbn [combine map fst snd]. rewrite !(lsum_cons' K). f_equal.
      - f_equal. apply (leaves_det short leb small jw op OK SM (ae K (snd q)) (a_set K (snd q)) (a_in K (snd q))); [exact Rq|apply HL'; now left|apply HI2; now left].
      - apply IH; [cbn in LI'; lia|intros q' i' Hin; apply HL'; now right|cbn in LI2; lia|intros q' i' Hin; apply HI2; now right]. }
    specialize (HK' r Hr). rewrite E, <- (HK2 r), (Two x' r X0' Hr) in HK'.
    transitivity (rhs_of (l1 ++ l2) r +' (tot K (size D0) (fun c => (coef (l1 ++ l2) r c +' (if (r =? c)%Z then if z r then mp else 0 else 0)) *' x' c) -' rhs_of (l1 ++ l2) r)); [ring|].
    rewrite HK'. ring.
Qed.
Lemma sweep_spec : forall D0 mp ws xs, wf D0 -> mp <> 0 -> (forall p, wanted_place (size D0) ws p -> place_ok A D0 p) ->
  Forall el_ready xs -> Forall (fun q => within (size D0) (ae K (snd q)) /\ incl (iwant K (ae K (snd q))) ws) xs ->
  forall jws M, Sys A D0 mp M ->
  exists l, ac_sweep K short leb small op jws xs M = Some l /\ length l = length jws /\
    forall n jw M' x, nth_error jws n = Some jw -> nth_error l n = Some (M', x) -> exists Mb, Sys A D0 mp Mb /\ ac_freq K short leb small op jw xs Mb = Some (M', x).
Proof.
  intros D0 mp ws xs HD Hmp Hok R W. induction jws as [|jw jws IH]; intros M HS.
  - exists []. split; [reflexivity|]. split; [reflexivity|]. intros [|n] jw M' x E; discriminate.
  - destruct (freq_spec D0 mp jw ws xs M HD HS Hmp Hok R W) as (M1 & x1 & E1 & S1 & _). destruct (IH M1 S1) as (l & El & Ll & Hl).
    cbn [ac_sweep]. rewrite E1. cbn [bind fst]. rewrite El. cbn [bind]. eexists. split; [reflexivity|]. split; [cbn; now rewrite Ll|].
    intros [|n] jw' M' x' E F; cbn in E, F; [|now apply (Hl n)]. injection E as <-. injection F as <- <-. exists M. now split.
Qed.
End Sw.
End S.
