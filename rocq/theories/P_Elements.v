(* C67: the solved voltages and the currents of the elements obey Kirchhoff's current law and the law
   of each element; the current probe shows that current. *)
Require Import ZArith List Bool Lia Field QArith Qcanon.
Require Import Verif.Loops Verif.FieldSums Verif.Matrix_Model Verif.Matrix_Layout Verif.Matrix_LU Verif.Matrix_Load Verif.Matrix_Exact Verif.Matrix_Spec Verif.Matrix_Main Verif.P_Matrix Verif.Solver_Model
  Verif.Solver_Content Verif.Solver_Proofs Verif.P_Solver Verif.Storage_Model Verif.Elements_Model Verif.Elements_Proofs.
Import ListNotations.
Local Open Scope Z_scope.

(* every iteration of every run: let es be elements whose evaluation gave the values that were
   loaded.  Then there are currents I, one for each element, such that every element obeys its law
   with its current, its probe shows that current, and in every row of the matrix what gmin (and
   the replacement of a zero pivot) and all elements take out adds up to nothing. *)
Theorem C67_solved_circuit : forall (K : fld) short leb s ws junk mp (ds : list (dev (exA K))) m damp rhs v w cmds,
  0 <= s -> (forall p, In p ws -> fst p <= s /\ snd p <= s) -> circuit_ok s ws ds -> m <> tsYES -> mp <> f0 K ->
  world_ok (exA K) (length ds) w -> Forall (cmd_ok (exA K) (length ds)) cmds ->
  (forall c o, In c cmds -> cmd_opts c = Some o -> forall z a, o_noise (exA K) o z a = true -> z = f0 K) ->
  order_ok K short leb ->
  exists M y, start_mat (exA K) s ws junk mp = Some M /\
    foldM (do_cmd (exA K) w) cmds (fresh M m damp rhs v ds) = Some y /\
    forall pre sn post, s_log (exA K) y = pre ++ sn :: post ->
      exists f z, find (sn_full (exA K)) (sn :: post) = Some f /\
        (forall k, 1 <= k <= s -> (z k = true <-> zero_pivot K (aa (sn_mat (exA K) sn)) (sn_lu _ sn) k)) /\
        sn_x _ sn 0 = f0 K /\
        forall es, Forall2 (carries K short leb) (sn_devs _ sn) es -> Forall (nodes_in K short leb s) es -> Forall (elem_ok K) es ->
          exists I, length I = length es /\
            (forall e i, In (e, i) (combine es I) ->
               law K short leb e (sn_x _ sn) i /\ (probed K e = true -> tr_amps K short leb e (sn_x _ sn) = Some i)) /\
            forall r, 1 <= r <= s ->
              fadd K (fmul K (fadd K (sn_gmin _ f) (if z r then mp else f0 K)) (sn_x _ sn r))
                     (sum_leaves K (combine (sn_devs _ sn) (combine es I)) (sn_x _ sn) r) = f0 K.
Proof.
  intros K short leb s ws junk mp ds m damp rhs v w cmds Hs Hin Hd Hm Hmp Hw Hc Hq Ho.
  destruct (C09_voltages_solve K s ws junk mp ds m damp rhs v w cmds Hs Hin Hd Hm Hmp Hw Hc Hq) as (M & y & E1 & E2 & H).
  exists M, y. split; [assumption|]. split; [assumption|]. intros pre sn post El.
  destruct (H pre sn post El) as (f & z & Hf & Hz & X0 & Sys). exists f, z. split; [assumption|]. split; [assumption|]. split; [assumption|].
  intros es C N Ok.
  apply (kcl K short leb Ho s (sn_x _ sn) (sn_gmin _ f) (fun r => if z r then mp else f0 K) _ es X0 C N Ok).
  intros r Hr. rewrite <- (Sys r Hr). unfold tot. apply fsum_ext. intros c _. f_equal. f_equal.
  destruct (r =? c); reflexivity.
Qed.
Print Assumptions C67_solved_circuit.

Section Ring.
Variable K : fld.
Add Field Kri : (fth K).
Lemma sub_self : forall u, fsub K u u = f0 K. Proof. intros. ring. Qed.
Lemma add_mul0 : forall k u, fadd K u (fmul K k (f0 K)) = u. Proof. intros. ring. Qed.
Lemma fc0_sub : forall (x1 y1 x2 y2 k : F K), fsub K (fsub K x1 x2) (fmul K (fsub K y1 y2) k) = fsub K (fsub K x1 (fmul K y1 k)) (fsub K x2 (fmul K y2 k)).
Proof. intros. ring. Qed.
Lemma mul_sub : forall a b k, fmul K (fsub K a b) k = fsub K (fmul K a k) (fmul K b k). Proof. intros. ring. Qed.
End Ring.
(* the input of the behaviour of a nonlinear element is, at the voltages x and its current i, the
   point at which the behaviour was evaluated: the iteration stands still *)
Definition at_point (K : fld) short leb (e : element K) (x : Z -> F K) (i : F K) : Prop :=
  let v n1 n2 := fsub K (x n1) (x n2) in
  match e with
  | ER _ _ _ (Fun _ _) a => i = a
  | EY _ o1 o2 (Fun _ _) a => v o1 o2 = a
  | EG _ _ _ i1 i2 (Fun _ _) a => v i1 i2 = a
  | EE _ _ _ i1 i2 (Fun _ _) a => v i1 i2 = a
  | EF _ _ _ inp (Fun _ _) a | EH _ _ _ inp (Fun _ _) a => tr_amps K short leb inp x = Some a
  | EVCG _ _ _ i1 i2 _ a _ | EVCR _ _ _ i1 i2 _ a _ | EVCC _ _ _ i1 i2 _ a _ _ _ => v i1 i2 = a
  | EC _ o1 o2 (Fun _ _) a _ _ => v o1 o2 = a
  | ETC _ _ _ i1 i2 (Fun _ _) a _ _ => v i1 i2 = a
  | EL _ _ _ (Fun _ _) a _ _ => i = a
  | _ => True
  end.
(* the element with its behaviour as it is, not expanded *)
Definition exactly (K : fld) short leb (e : element K) (x : Z -> F K) (i : F K) : Prop :=
  let v n1 n2 := fsub K (x n1) (x n2) in
  let at_ (b : beh K) (u : F K) := match b with Lin _ k => fmul K k u | Fun _ f => fst (f u) end in
  match e with
  | ER _ o1 o2 (Fun _ f) _ =>
      leb short (snd (f i)) = true \/ leb (snd (f i)) (fopp K short) = true -> v o1 o2 = fst (f i)
  | EY _ o1 o2 b _ => i = at_ b (v o1 o2)
  | EG _ _ _ i1 i2 b _ => i = at_ b (v i1 i2)
  | EE _ o1 o2 i1 i2 b _ => v o1 o2 = fadd K (at_ b (v i1 i2)) (fmul K short i)
  | EF _ _ _ inp b _ => exists j, tr_amps K short leb inp x = Some j /\ i = at_ b j
  | EH _ o1 o2 inp b _ => exists j, tr_amps K short leb inp x = Some j /\ v o1 o2 = fadd K (at_ b j) (fmul K short i)
  | EVCG _ o1 o2 i1 i2 f _ _ => i = fmul K (fst (f (v i1 i2))) (v o1 o2)
  | EVCR _ o1 o2 i1 i2 f _ _ => fst (f (v i1 i2)) <> f0 K -> v o1 o2 = fmul K (fst (f (v i1 i2))) i
  | EC _ o1 o2 b _ h p => h_ph K h <> Restore -> i = rate K h p (at_ b (v o1 o2))
  | ETC _ _ _ i1 i2 b _ h p => h_ph K h <> Restore -> i = rate K h p (at_ b (v i1 i2))
  | EVCC _ o1 o2 i1 i2 f _ _ h p => h_ph K h <> Restore -> i = rate K h p (fmul K (fst (f (v i1 i2))) (v o1 o2))
  | EL _ o1 o2 (Lin _ k) _ h p => h_ph K h = Dynamic -> k <> f0 K -> v o1 o2 = rate K h p (fmul K k i)
  | EL _ o1 o2 (Fun _ f) _ h p => h_ph K h = Dynamic -> v o1 o2 = rate K h p (fst (f i))
  | _ => True
  end.
Theorem C67_exact_at_convergence : forall (K : fld) short leb e x i,
  order_ok K short leb -> law K short leb e x i -> at_point K short leb e x i -> exactly K short leb e x i.
Proof.
  intros K short leb e x i Ho L P. pose proof (short_nz K short leb Ho) as SN.
  assert (Z0 : forall u, fsub K u u = f0 K) by (intros; apply sub_self).
  assert (M0 : forall k u, fadd K u (fmul K k (f0 K)) = u) by (intros; apply add_mul0).
  assert (LA : forall f a, lin_at K (Fun K f) a a = fst (f a)). { intros f a. cbn. rewrite Z0. apply M0. }
  assert (NZ : forall u, u <> f0 K -> fz K u = false).
  { intros u N. destruct (fz K u) eqn:E; [|reflexivity]. apply fz_ok in E. contradiction. }
  destruct e as [o1 o2 b a|o1 o2 b a|o1 o2 i1 i2 b a|o1 o2 v|o1 o2 v|o1 o2 i1 i2 b a|o1 o2 inp b a|o1 o2 inp b a
    |o1 o2 i1 i2 f a w|o1 o2 i1 i2 f a w|o1 o2 b a h p|o1 o2 i1 i2 b a h p|o1 o2 i1 i2 f a w h p|o1 o2 b a h p
    |o1 o2 i1 b a h p|n1 n2 lm a1 a2 h p pf pr|o1 o2 v0 v1 ports]; cbn [law at_point exactly] in *; try exact I.
  - destruct b as [k|f]; [exact I|]. subst a. destruct L as (y0 & y1 & L & S & _). intros H. destruct (S H) as (-> & ->).
    rewrite L, Z0. apply M0.
  - destruct b as [k|f]; [exact L|]. rewrite P in *. now rewrite LA in L.
  - destruct b as [k|f]; [exact L|]. rewrite P in *. now rewrite LA in L.
  - destruct b as [k|f]; [exact L|]. rewrite P in *. now rewrite LA in L.
  - destruct L as (j & Ej & _ & L). exists j. split; [assumption|]. destruct b as [k|f]; [exact L|].
    rewrite P in Ej. injection Ej as <-. now rewrite LA in L.
  - destruct L as (j & Ej & _ & L). exists j. split; [assumption|]. destruct b as [k|f]; [exact L|].
    rewrite P in Ej. injection Ej as <-. now rewrite LA in L.
  - rewrite P in *. rewrite Z0, M0 in L. exact L.
  - rewrite P in *. destruct L as (r & Er & L). rewrite Z0, M0 in L. intros N. rewrite (NZ _ N) in Er. now rewrite Er in L.
  - intros N. destruct b as [k|f]; unfold sto in L; [destruct (h_ph K h); try exact L; contradiction|].
    rewrite P in *. rewrite LA in L. destruct (h_ph K h); try exact L; contradiction.
  - intros N. destruct b as [k|f]; unfold sto in L; [destruct (h_ph K h); try exact L; contradiction|].
    rewrite P in *. rewrite LA in L. destruct (h_ph K h); try exact L; contradiction.
  - intros N. rewrite P in *. unfold sto in L. cbn [lin_at] in L. destruct (h_ph K h); try exact L; contradiction.
  - destruct b as [k|f]; intros Hd.
    + intros N. rewrite Hd in L. now rewrite (NZ _ N) in L.
    + subst a. rewrite Hd in L. rewrite Z0, M0 in L. destruct (fz K (snd (f i))) eqn:Ez; [now rewrite (NZ _ SN) in L|now rewrite Ez in L].
Qed.
Print Assumptions C67_exact_at_convergence.

(* the three records of a mutual inductance agree, in every run that evaluates only after the
   advances have filled what is read.  k: how many advances there were *)
Definition balanced (K : fld) (a b c : fpoly K) : Prop := pf0 K a = fsub K (pf0 K b) (pf0 K c).
Definition balanced_line (K : fld) (a b c : fpoly K) : Prop :=
  pf0 K a = fsub K (pf0 K b) (pf0 K c) /\ px K a = fsub K (px K b) (px K c) /\ pf1 K a = pf1 K b /\ pf1 K a = pf1 K c.
Fixpoint in_order (K : fld) (k : nat) (ops : list (mop K)) : Prop :=
  match ops with
  | [] => True
  | MEval _ _ _ _ h :: l =>
      (h_ph K h = Dynamic -> (1 <= k)%nat /\ (h_t1 K h <> h_t2 K h -> (2 <= k)%nat)) /\ in_order K k l
  | MAdvance _ :: l => in_order K (S k) l
  | MDcAdvance _ :: l => in_order K k l
  end.
Fixpoint advances (K : fld) (k : nat) (ops : list (mop K)) : nat :=
  match ops with [] => k | MAdvance _ :: l => advances K (S k) l | _ :: l => advances K k l end.
Section Mut.
Variable K : fld.
Add Field Kmu : (fth K).
Variable leb : F K -> F K -> bool.
Definition minv (k : nat) (m : mut K) : Prop :=
  balanced K (c_q0 K (m_y K m)) (c_q0 K (m_f K m)) (c_q0 K (m_r K m)) /\
  balanced_line K (c_i0 K (m_y K m)) (c_i0 K (m_f K m)) (c_i0 K (m_r K m)) /\
  balanced K (c_i1 K (m_y K m)) (c_i1 K (m_f K m)) (c_i1 K (m_r K m)) /\
  ((1 <= k)%nat -> balanced K (c_q1 K (m_y K m)) (c_q1 K (m_f K m)) (c_q1 K (m_r K m))) /\
  ((2 <= k)%nat -> balanced K (c_q2 K (m_y K m)) (c_q2 K (m_f K m)) (c_q2 K (m_r K m))).
Lemma diff_bal : forall h py pf pr a1 a2 lm iy jf jr,
  differentiate K leb h py (mkfp K (fsub K a1 a2) (fmul K (fsub K a1 a2) (fopp K lm)) (fopp K lm)) = Some iy ->
  differentiate K leb h pf (mkfp K a1 (fmul K a1 (fopp K lm)) (fopp K lm)) = Some jf ->
  differentiate K leb h pr (mkfp K a2 (fmul K a2 (fopp K lm)) (fopp K lm)) = Some jr ->
  balanced_line K (p_i0 K py) (p_i0 K pf) (p_i0 K pr) -> balanced K (p_i1 K py) (p_i1 K pf) (p_i1 K pr) ->
  (h_ph K h = Dynamic -> balanced K (p_q1 K py) (p_q1 K pf) (p_q1 K pr)) ->
  (h_ph K h = Dynamic -> h_t1 K h <> h_t2 K h -> balanced K (p_q2 K py) (p_q2 K pf) (p_q2 K pr)) ->
  balanced_line K iy jf jr.
Proof.
  intros h py pf pr a1 a2 lm iy jf jr E1 E2 E3 B0 B1 Q1 Q2. unfold differentiate in *.
  destruct (h_ph K h).
  - destruct (fz K (h_t0 K h)); [|discriminate]. injection E1 as <-. injection E2 as <-. injection E3 as <-.
    unfold balanced_line; cbn. repeat split; ring.
  - destruct (ltb K leb (f0 K) (h_t0 K h)); [|discriminate]. injection E1 as <-. injection E2 as <-. injection E3 as <-. exact B0.
  - destruct (ltb K leb (f0 K) (fsub K (h_t0 K h) (h_t1 K h))); [|discriminate]. injection E1 as <-. injection E2 as <-. injection E3 as <-.
    specialize (Q1 eq_refl). specialize (Q2 eq_refl). unfold balanced in *.
    destruct (fz K (fsub K (h_t1 K h) (h_t2 K h))) eqn:Ez.
    + unfold balanced_line. cbn. rewrite Q1, !(div_def K). repeat split; ring.
    + assert (Nt : h_t1 K h <> h_t2 K h). { intros E. apply (fz_nz K) in Ez. apply Ez. rewrite E. ring. }
      specialize (Q2 Nt). unfold balanced_line.
      destruct (h_m K h); cbn; rewrite ?Q1, ?Q2, ?B1, !(div_def K); repeat split; ring.
Qed.
Lemma mut_step : forall o k m m', minv k m -> in_order K k [o] -> mut_op K leb o m = Some m' -> minv (advances K k [o]) m'.
Proof.
  intros [lm a1 a2 h| |] k m m' (V0 & VI0 & VI1 & V1 & V2) Ho E; cbn [mut_op] in E; cbn [advances].
  - destruct Ho as (Ho & _). unfold chain_eval in E.
    destruct (differentiate K leb h (past_of K (m_y K m)) _) as [iy|] eqn:E1; [|discriminate]. cbn [bind] in E.
    destruct (differentiate K leb h (past_of K (m_f K m)) _) as [jf|] eqn:E2; [|discriminate]. cbn [bind] in E.
    destruct (differentiate K leb h (past_of K (m_r K m)) _) as [jr|] eqn:E3; [|discriminate]. cbn [bind] in E. injection E as <-.
    unfold minv. cbn. split; [unfold balanced; cbn; ring|]. split; [|split; [assumption|split; assumption]].
    apply (diff_bal h _ _ _ a1 a2 lm iy jf jr E1 E2 E3); cbn.
    + exact VI0. + exact VI1. + intros D. apply V1. now apply Ho. + intros D N. apply V2. now apply Ho.
  - injection E as <-. unfold minv, chain_adv. cbn. split; [assumption|]. split; [assumption|]. split; [exact (proj1 VI0)|].
    split; [intros; assumption|]. intros H. apply V1. lia.
  - injection E as <-. unfold minv, chain_dc. cbn. split; [assumption|]. split; [assumption|]. split; [exact (proj1 VI0)|]. split; assumption.
Qed.
Lemma mut_steps : forall ops k m m', minv k m -> in_order K k ops -> foldM (mut_op K leb) ops m = Some m' -> minv (advances K k ops) m'.
Proof.
  induction ops as [|o l IH]; intros k m m' V Ho E; cbn [foldM] in E; [injection E as <-; exact V|].
  destruct (mut_op K leb o m) as [m1|] eqn:E1; [|discriminate]. cbn [bind] in E.
  assert (V1 : minv (advances K k [o]) m1).
  { apply (mut_step o k m m1 V); [|assumption]. destruct o; cbn in *; tauto. }
  destruct o; cbn in *; apply (IH _ m1 m' V1); tauto.
Qed.
End Mut.
Theorem C67_mutual_records_agree : forall (K : fld) leb lm a1 a2 h0 ops (m m' : mut K) h,
  h_ph K h0 = Static ->
  (* tr_begin cleared _i, _if, _ir; _y, _yf, _yr may hold anything from earlier runs *)
  (forall c, c = m_y K m \/ c = m_f K m \/ c = m_r K m -> c_i0 K c = mkfp K (f0 K) (f0 K) (f0 K) /\ c_i1 K c = mkfp K (f0 K) (f0 K) (f0 K)) ->
  in_order K 0 (MEval K lm a1 a2 h0 :: ops) -> foldM (mut_op K leb) (MEval K lm a1 a2 h0 :: ops) m = Some m' ->
  (h_ph K h = Dynamic -> (1 <= advances K 0 ops)%nat /\ (h_t1 K h <> h_t2 K h -> (2 <= advances K 0 ops)%nat)) ->
  mut_ok K h (past_of K (m_y K m')) (past_of K (m_f K m')) (past_of K (m_r K m')).
Proof.
  intros K leb lm a1 a2 h0 ops m m' h H0 Hi Ho E Hh.
  destruct (Hi _ (or_introl eq_refl)) as (Iy0 & Iy1). destruct (Hi _ (or_intror (or_introl eq_refl))) as (If0 & If1).
  destruct (Hi _ (or_intror (or_intror eq_refl))) as (Ir0 & Ir1).
  cbn [foldM] in E. destruct (mut_op K leb (MEval K lm a1 a2 h0) m) as [m1|] eqn:E1; [|discriminate]. cbn [bind] in E.
  assert (V : minv K 0 m1).
  { cbn [mut_op] in E1. unfold chain_eval in E1.
    destruct (differentiate K leb h0 (past_of K (m_y K m)) _) as [iy|] eqn:D1; [|discriminate]. cbn [bind] in E1.
    destruct (differentiate K leb h0 (past_of K (m_f K m)) _) as [jf|] eqn:D2; [|discriminate]. cbn [bind] in E1.
    destruct (differentiate K leb h0 (past_of K (m_r K m)) _) as [jr|] eqn:D3; [|discriminate]. cbn [bind] in E1. injection E1 as <-.
    assert (BZ : balanced_line K (mkfp K (f0 K) (f0 K) (f0 K)) (mkfp K (f0 K) (f0 K) (f0 K)) (mkfp K (f0 K) (f0 K) (f0 K))).
    { unfold balanced_line. cbn. now rewrite sub_self. }
    unfold minv. cbn. split; [|split; [|split; [|split; intros; lia]]].
    - unfold balanced. cbn. apply mul_sub.
    - apply (diff_bal K leb h0 _ _ _ a1 a2 lm iy jf jr D1 D2 D3).
      + unfold past_of. cbn [p_i0]. rewrite Iy0, If0, Ir0. exact BZ.
      + unfold past_of. cbn [p_i1]. unfold balanced. rewrite Iy1, If1, Ir1. exact (proj1 BZ).
      + intros; congruence. + intros; congruence.
    - unfold balanced. rewrite Iy1, If1, Ir1. exact (proj1 BZ). }
  cbn [in_order] in Ho. destruct Ho as (_ & Ho).
  pose proof (mut_steps K leb ops 0 m1 m' V Ho E) as (V0 & VI0 & VI1 & V1 & V2).
  unfold mut_ok. destruct (h_ph K h); [exact I| |].
  - destruct VI0 as (A & B & C & D). cbn. split; [|split; assumption]. unfold fc0. rewrite A, B, <- C, <- D. apply fc0_sub.
  - destruct (Hh eq_refl) as (H1 & H2). cbn. split; [now apply V1|]. split; [|exact VI1]. intros N. apply V2. now apply H2.
Qed.
Print Assumptions C67_mutual_records_agree.

(* ---- dc sweeps of the value of a linear element ---- *)
(* what the element must hold for the value v *)
Definition lin_held (K : fld) short leb (k : lkind K) (v : F K) : option (est K) :=
  match k with
  | KR _ => eval K short leb (ER K 1 2 (Lin K v) (f0 K))
  | KY _ => eval K short leb (EY K 1 2 (Lin K v) (f0 K))
  | KV _ => eval K short leb (EV K 1 2 v)
  | KI _ => eval K short leb (EI K 1 2 v)
  | KE _ => eval K short leb (EE K 1 2 3 4 (Lin K v) (f0 K))
  | KF _ false si => Some (mkest K (f0 K) (cccs_m0 K (Lin K v) (f0 K) false si))
  | _ => None
  end.
Section Sweep.
Variable K : fld.
Add Field Ksw : (fth K).
Variable short : F K.
Variable leb : F K -> F K -> bool.
Definition val_of (k : lkind K) (v : F K) : F K := match k with KR _ => res_value K short leb v | _ => v end.
Definition sinv (k : lkind K) (v : F K) (s : lst K) : Prop :=
  l_y K s = val_of k v /\ l_y1 K s = l_y K s /\
  match k with
  | KR _ => l_c0 K s = f0 K /\ l_c1 K s = fdiv K (f1 K) (l_y K s) /\ l_loss K s = f0 K
  | KY _ => l_c0 K s = f0 K /\ l_c1 K s = l_y K s /\ l_loss K s = f0 K
  | KV _ => l_c0 K s = fmul K (fopp K (fdiv K (f1 K) short)) (l_y K s) /\ l_c1 K s = f0 K /\ l_loss K s = fdiv K (f1 K) short
  | KI _ => l_c0 K s = l_y K s /\ l_c1 K s = f0 K /\ l_loss K s = f0 K
  | KE _ => l_c0 K s = f0 K /\ l_c1 K s = fmul K (fopp K (fdiv K (f1 K) short)) (l_y K s) /\ l_loss K s = fdiv K (f1 K) short
  | KF _ _ _ => l_loss K s = f0 K
  | KH _ _ _ => False
  end.
Definition sound_kind (k : lkind K) : Prop := match k with KF _ i _ => i = false | KH _ _ _ => False | _ => True end.
Lemma begin_inv : forall k v, sound_kind k -> sinv k v (lin_begin K short leb k v).
Proof. intros [] v Hk; cbn in *; unfold sinv; cbn; repeat split; try reflexivity; contradiction. Qed.
Lemma fz_sub : forall a b, fz K (fsub K a b) = true -> a = b.
Proof. intros a b H. apply fz_ok in H. now apply (sub_eq K). Qed.
Lemma advance_inv : forall k v v' s, sound_kind k -> sinv k v s -> sinv k v' (lin_advance K short leb k v' s).
Proof.
  intros k v v' s Hk (Y & Y1 & C). unfold lin_advance.
  destruct k as [| | | | |i si|i si]; cbn in Hk; try contradiction; cbn [val_of] in *;
    destruct (fz K (fsub K _ (l_y1 K s))) eqn:Ez; cbn in C; unfold sinv; cbn [l_y l_y1 l_c0 l_c1 l_loss val_of];
    try (apply fz_sub in Ez; rewrite ?Ez, ?Y1 in *; repeat split; tauto);
    try (destruct C as (C0 & C1 & CL)); rewrite ?CL; repeat split; try assumption; try reflexivity.
Qed.
Lemma fz_refl : forall a, fz K (fsub K a a) = true.
Proof. intros. apply fz_ok. ring. Qed.
Lemma do_inv : forall k v s, sound_kind k -> sinv k v s -> exists s', lin_do_tr K short leb k v s = Some s' /\ sinv k v s' /\
  exists e, lin_held K short leb k v = Some e /\ (l_loss K s', l_c0 K s', l_c1 K s') = (e_loss K e, cc0 K (e_m K e), cc1 K (e_m K e)).
Proof.
  intros k v s Hk I. pose proof I as (Y & Y1 & C). unfold lin_do_tr.
  destruct k as [| | | | |i si|i si]; cbn in Hk; try contradiction; cbn [val_of] in Y; rewrite Y, fz_refl.
  - exists s. split; [reflexivity|]. split; [exact I|]. eexists. split; [reflexivity|]. cbn. destruct C as (-> & -> & ->). now rewrite Y.
  - exists s. split; [reflexivity|]. split; [exact I|]. eexists. split; [reflexivity|]. cbn. destruct C as (-> & -> & ->). now rewrite Y.
  - exists s. split; [reflexivity|]. split; [exact I|]. eexists. split; [reflexivity|]. cbn. destruct C as (-> & -> & ->). now rewrite Y.
  - exists s. split; [reflexivity|]. split; [exact I|]. eexists. split; [reflexivity|]. cbn. destruct C as (-> & -> & ->). now rewrite Y.
  - exists s. split; [reflexivity|]. split; [exact I|]. eexists. split; [reflexivity|]. cbn. destruct C as (-> & -> & ->). now rewrite Y.
  - subst i. eexists. split; [reflexivity|]. split; [unfold sinv; cbn; repeat split; assumption|]. eexists. split; [reflexivity|]. cbn. cbn in C. now rewrite C.
Qed.
Lemma iterate_inv : forall n k v s, sound_kind k -> sinv k v s -> exists s', iterate K short leb n k v s = Some s' /\ sinv k v s' /\
  (n <> O -> exists e, lin_held K short leb k v = Some e /\ (l_loss K s', l_c0 K s', l_c1 K s') = (e_loss K e, cc0 K (e_m K e), cc1 K (e_m K e))).
Proof.
  induction n as [|n IH]; intros k v s Hk I; cbn [iterate].
  - exists s. split; [reflexivity|]. split; [assumption|]. intros H. now contradiction H.
  - destruct (do_inv k v s Hk I) as (s1 & E1 & I1 & He). rewrite E1. cbn [bind].
    destruct (IH k v s1 Hk I1) as (s2 & E2 & I2 & H2). exists s2. split; [assumption|]. split; [assumption|]. intros _.
    destruct n as [|n]; [cbn in E2; injection E2 as <-; assumption|]. apply H2. discriminate.
Qed.
Lemma steps_inv : forall l k v s, sound_kind k -> sinv k v s -> exists s' v', foldM (lin_step K short leb k) l s = Some s' /\ sinv k v' s'.
Proof.
  induction l as [|[v1 n] l IH]; intros k v s Hk I; cbn [foldM].
  - exists s, v. now split.
  - unfold lin_step at 1. cbn [fst snd].
    destruct (iterate_inv n k v1 _ Hk (advance_inv k v v1 s Hk I)) as (s1 & E1 & I1 & _). rewrite E1. cbn [bind]. now apply (IH k v1 s1).
Qed.
End Sweep.

(* R, Y (and G), V, I, E, and F sensing anything but an inductor with a current node: after
   tr_begin and any steps of a dc sweep, each with any value and any number of iterations, no
   assertion has failed and what is loaded is that of the last value *)
Theorem C67_sweep_uses_the_value : forall (K : fld) short leb k v0 steps v n,
  (match k with KF _ inode _ => inode = false | KH _ _ _ => False | _ => True end) ->
  exists s e, foldM (lin_step K short leb k) (steps ++ [(v, S n)]) (lin_begin K short leb k v0) = Some s /\
    lin_held K short leb k v = Some e /\
    l_loss K s = e_loss K e /\ l_c0 K s = cc0 K (e_m K e) /\ l_c1 K s = cc1 K (e_m K e).
Proof.
  intros K short leb k v0 steps v n Hk.
  destruct (steps_inv K short leb steps k v0 _ Hk (begin_inv K short leb k v0 Hk)) as (s1 & v1 & E1 & I1).
  destruct (iterate_inv K short leb (S n) k v _ Hk (advance_inv K short leb k v1 v s1 Hk I1)) as (s2 & E2 & I2 & H2).
  destruct (H2 ltac:(discriminate)) as (e & He & Hq). exists s2, e. split.
  - clear - E1 E2. revert s1 E1 E2. generalize (lin_begin K short leb k v0). induction steps as [|a l IH]; intros s0 s1 E1 E2; cbn [foldM app] in *.
    + injection E1 as <-. unfold lin_step. cbn [fst snd]. rewrite E2. reflexivity.
    + destruct (lin_step K short leb k a s0) as [s'|]; [|discriminate]. cbn [bind] in *. now apply (IH s' s1).
  - split; [assumption|]. injection Hq as -> -> ->. repeat split.
Qed.
Print Assumptions C67_sweep_uses_the_value.

(* H has no dc_advance: a swept value is not picked up.  With assertions the program stops; without
   them _y[0].f1, from which do_tr_last computes everything, stays what it was *)
Theorem C67_ccvs_sweep_refuted : forall (K : fld) short leb inode si v0 v n, v <> v0 ->
  lin_step K short leb (KH K inode si) (v, S n) (lin_begin K short leb (KH K inode si) v0) = None /\
  l_y K (lin_advance K short leb (KH K inode si) v (lin_begin K short leb (KH K inode si) v0)) = v0.
Proof.
  intros K short leb inode si v0 v n N.
  assert (A : lin_advance K short leb (KH K inode si) v (lin_begin K short leb (KH K inode si) v0) = lin_begin K short leb (KH K inode si) v0).
  { unfold lin_advance. cbn [l_y l_y1 lin_begin]. now rewrite fz_refl. }
  split; [|now rewrite A]. unfold lin_step. cbn [fst snd]. rewrite A. cbn [iterate lin_do_tr lin_begin l_y].
  destruct (fz K (fsub K v0 v)) eqn:E; [|reflexivity]. apply fz_sub in E. congruence.
Qed.
Print Assumptions C67_ccvs_sweep_refuted.

(* F sensing an inductor with a current node: the gain loaded is that of tr_begin *)
Theorem C67_cccs_inode_sweep_refuted : forall (K : fld) short leb si v0 v n, v <> v0 ->
  exists s, lin_step K short leb (KF K true si) (v, S n) (lin_begin K short leb (KF K true si) v0) = Some s /\
    l_c1 K s = v0 /\ l_c0 K s = f0 K.
Proof.
  intros K short leb si v0 v n N. unfold lin_step. cbn [fst snd].
  assert (G : forall m s, l_y K s = v -> exists s', iterate K short leb (S m) (KF K true si) v s = Some s' /\ l_c1 K s' = l_c1 K s /\ l_c0 K s' = f0 K).
  { induction m as [|m IH]; intros s Y; cbn [iterate lin_do_tr]; rewrite Y, fz_refl; cbn [bind].
    - eexists. split; [reflexivity|]. now split.
    - edestruct IH as (s' & E & A & B); [|exists s'; split; [exact E|]; split; [exact A|exact B]]. reflexivity. }
  destruct (G n (lin_advance K short leb (KF K true si) v (lin_begin K short leb (KF K true si) v0))) as (s' & E & A & B).
  - unfold lin_advance. destruct (fz K _); reflexivity.
  - exists s'. split; [assumption|]. split; [|assumption]. rewrite A. unfold lin_advance. destruct (fz K _); reflexivity.
Qed.
Print Assumptions C67_cccs_inode_sweep_refuted.

Lemma iter_in : forall (X : Type) (g : X -> X) n x, Nat.iter n g (g x) = Nat.iter (S n) g x.
Proof. intros X g n x. induction n as [|n IH]; [reflexivity|]. change (g (Nat.iter n g (g x)) = g (Nat.iter (S n) g x)). now rewrite IH. Qed.
(* H sensing an inductor with a current node: every iteration multiplies the coefficient by
   -1/shortckt again.  It should be -v/shortckt. *)
Theorem C67_ccvs_inode_refuted : forall (K : fld) short leb si v n,
  exists s, iterate K short leb n (KH K true si) v (lin_begin K short leb (KH K true si) v) = Some s /\
    l_c1 K s = Nat.iter n (fun c => fmul K c (fopp K (fdiv K (f1 K) short))) (fmul K (fopp K (fdiv K (f1 K) short)) v).
Proof.
  intros K short leb si v n.
  assert (G : forall m s, l_y K s = v -> l_loss K s = fdiv K (f1 K) short -> exists s', iterate K short leb m (KH K true si) v s = Some s' /\
    l_c1 K s' = Nat.iter m (fun c => fmul K c (fopp K (fdiv K (f1 K) short))) (l_c1 K s)).
  { induction m as [|m IH]; intros s Y L.
    - exists s. now split.
    - cbn [iterate lin_do_tr]. rewrite Y, fz_refl. cbn [bind].
      edestruct IH as (s' & E & A); [| |exists s'; split; [exact E|]]; [reflexivity|exact L|].
      rewrite A. cbn [l_c1]. rewrite L. apply (iter_in _ (fun c => fmul K c (fopp K (fdiv K (f1 K) short))) m (l_c1 K s)). }
  apply G; reflexivity.
Qed.
Print Assumptions C67_ccvs_inode_refuted.

(* ---------------------------------------------------------------------- *)
(* Examples, over the rationals, with shortckt = 1/10 *)
Local Notation Aq := (exA QcFld).
Definition qle (a b : Qc) : bool := if Qclt_le_dec b a then false else true.
Definition sh : Qc := Q2Qc (1#10).
Lemma order_q : order_ok QcFld sh qle.
Proof. unfold order_ok. repeat split; try reflexivity; intros H; apply (f_equal this) in H; discriminate. Qed.
(* the current shown for DEV_VCCAP is not the one that flows *)
Definition hq : hist QcFld := mkh QcFld Dynamic (qz 1) (qz 0) (qz 0) mEULER.
Definition zp : fpoly QcFld := mkfp QcFld (qz 0) (qz 0) (qz 0).
Definition pq : past QcFld := mkpast QcFld zp zp zp zp.
Theorem C67_vccap_probe_refuted : exists (e : element QcFld) x i j, probed QcFld e = false /\ elem_ok QcFld e /\
  (match e with EVCC _ _ _ _ _ _ _ _ _ _ => True | _ => False end) /\
  law QcFld sh qle e x i /\ tr_amps QcFld sh qle e x = Some j /\ i <> j.
Proof.
  exists (EVCC QcFld 1 0 2 0 (fun v => (v, qz 1)) (qz 3) (qz 5) hq pq), (fun n => if n =? 1 then qz 5 else if n =? 2 then qz 3 else qz 0), (qz 15).
  eexists. split; [reflexivity|]. split; [exact I|]. split; [exact I|]. split; [apply Qc_is_canon; reflexivity|].
  split; [reflexivity|]. intros E. apply (f_equal this) in E. vm_compute in E. discriminate.
Qed.
Print Assumptions C67_vccap_probe_refuted.

(* a source of 5 with its 1/10 ohm, a resistor of 0.65 and from node 2 to ground an admittance with
   i = v*v; one iteration expands it at 1, the others at 2 *)
Definition sq (v : Qc) : Qc * Qc := (Qcmult v v, Qcmult (qz 2) v).
Definition els (a : Z) : list (element QcFld) :=
  [ EV QcFld 1 0 (qz 5); ER QcFld 1 2 (Lin QcFld (Q2Qc (65#100))) (qz 0); EY QcFld 2 0 (Fun QcFld sq) (qz a) ].
Definition dev_of (e : element QcFld) (c : bool) : dev Aq :=
  mkdev Aq (qz 1) c (match slots QcFld sh qle e with Some l => map (fun pv => mkslot Aq (fst pv) (snd pv) (qz 0)) l | None => [] end).
Definition ckt67 : list (dev Aq) := map (fun e => dev_of e false) (els 1).
Definition wld67 : world Aq :=
  mkworld Aq (fun _ => [])
    (fun t => mkstep Aq (if t =? 0 then [] else [EEval Aq 2 (fun j => match j with O => qz 4 | _ => qz (-4) end) true]) (2 <=? t)).
Lemma ckt67_ok : circuit_ok 2 ws1 ckt67.
Proof.
  intros d sl Hd Hsl. cbn in Hd. destruct Hd as [<-|[<-|[<-|[]]]]; cbn in Hsl;
    repeat (destruct Hsl as [<-|Hsl]); try contradiction; cbn; unfold wanted, ws1; cbn; intuition lia.
Qed.
Lemma wld67_ok : world_ok Aq 3 wld67.
Proof. intros t. split; [constructor|]. unfold step_ok, wld67. cbn. destruct (t =? 0); constructor; cbn; [lia|constructor]. Qed.
Definition cmd67 : list (cmd Aq) := [CSolve Aq (opt1 false true (qz 0)) 10].
Lemma qc_this : forall (a : Qc) q, this a = q -> a = Q2Qc q.
Proof. intros a q H. apply Qc_is_canon. rewrite H. symmetry. apply Qred_correct. Qed.
Lemma run67 : exists M y sn post, start_mat Aq 2 ws1 jq (qz 1) = Some M /\
  foldM (do_cmd Aq wld67) cmd67 (fresh M tsBAD (qz 1) jq jq ckt67) = Some y /\
  s_log Aq y = sn :: post /\ sn_x Aq sn 1 = Q2Qc (46#10) /\ sn_x Aq sn 2 = qz 2 /\ (2 <= length (s_log Aq y))%nat /\
  map (fun d => map (fun sl => (s_place Aq sl, this (s_old Aq sl))) (d_slots Aq d)) (sn_devs Aq sn) =
    [[(PShunt 1 0, 10#1); (PSource 1 0, (-50)#1)]; [(PShunt 1 2, 20#13); (PSource 1 2, 0#1)]; [(PShunt 2 0, 4#1); (PSource 2 0, (-4)#1)]]%Q.
Proof.
  assert (X : option_map (fun q => match s_log Aq (snd q) with
      | sn :: post => Some (this (sn_x Aq sn 1), this (sn_x Aq sn 2), (2 <=? length (sn :: post))%nat,
          map (fun d => map (fun sl => (s_place Aq sl, this (s_old Aq sl))) (d_slots Aq d)) (sn_devs Aq sn)) | [] => None end)
    (let* M := start_mat Aq 2 ws1 jq (qz 1) in let* y := foldM (do_cmd Aq wld67) cmd67 (fresh M tsBAD (qz 1) jq jq ckt67) in Some (M, y)) =
    Some (Some (23#5, 2#1, true, [[(PShunt 1 0, 10#1); (PSource 1 0, (-50)#1)]; [(PShunt 1 2, 20#13); (PSource 1 2, 0#1)]; [(PShunt 2 0, 4#1); (PSource 2 0, (-4)#1)]])%Q)).
  { vm_compute. reflexivity. }
  apply om_inv in X. destruct X as ((M & y) & E & H). apply bind_inv in E. destruct E as (M' & EM & E).
  apply bind_inv in E. destruct E as (y' & Ey & E). injection E as -> ->. cbn [snd] in H.
  destruct (s_log Aq y) as [|sn post] eqn:El; [discriminate|]. injection H as H1 H2 H3 H4.
  exists M, y, sn, post. split; [exact EM|]. split; [exact Ey|]. split; [exact El|].
  split; [rewrite (qc_this _ _ H1); now apply Qc_is_canon|]. split; [rewrite (qc_this _ _ H2); now apply Qc_is_canon|].
  split; [rewrite El; now apply Nat.leb_le|]. exact H4.
Qed.
Lemma carry_this : forall d e l, slots QcFld sh qle e = Some l ->
  map (fun sl => (s_place Aq sl, this (s_old Aq sl))) (d_slots Aq d) = map (fun pv => (fst pv, this (snd pv))) l -> carries QcFld sh qle d e.
Proof.
  intros d e l E H. unfold carries. rewrite E. f_equal. revert l E H. generalize (d_slots Aq d). induction l as [|sl l IH]; intros [|[p v] l'] E H; try discriminate; [reflexivity|].
  cbn [map fst snd] in *. injection H as H1 H2 H3. f_equal; [|clear E; revert H3; clear - IH; intros H3]. 2: { clear IH. revert l' H3. induction l as [|a l IH]; intros [|[p v] l'] H; try discriminate; [reflexivity|]. cbn [map fst snd] in *. injection H as H1 H2 H3. f_equal; [|now apply IH]. f_equal; [now symmetry|]. symmetry. rewrite (qc_this _ _ H2). apply Qc_is_canon. cbn. rewrite Qred_correct. reflexivity. }
  f_equal; [now symmetry|]. symmetry. rewrite (qc_this _ _ H2). apply Qc_is_canon. cbn. rewrite Qred_correct. reflexivity.
Qed.
(* the last iteration of that run meets every hypothesis of C67_solved_circuit, the admittance stands
   at its point, and so its current is the square of its voltage *)
Example ex_C67 : exists M y sn post I, start_mat Aq 2 ws1 jq (qz 1) = Some M /\
  foldM (do_cmd Aq wld67) cmd67 (fresh M tsBAD (qz 1) jq jq ckt67) = Some y /\ s_log Aq y = sn :: post /\
  Forall2 (carries QcFld sh qle) (sn_devs Aq sn) (els 2) /\ length I = 3%nat /\
  (forall e i, In (e, i) (combine (els 2) I) -> law QcFld sh qle e (sn_x Aq sn) i /\ tr_amps QcFld sh qle e (sn_x Aq sn) = Some i) /\
  I = [qz (-4); qz 4; qz 4] /\
  exactly QcFld sh qle (EY QcFld 2 0 (Fun QcFld sq) (qz 2)) (sn_x Aq sn) (qz 4).
Proof.
  destruct run67 as (M & y & sn & post & EM & Ey & El & X1 & X2 & _ & Hd).
  destruct (C67_solved_circuit QcFld sh qle 2 ws1 jq (qz 1) ckt67 tsBAD (qz 1) jq jq wld67 cmd67) as (M' & y' & E1 & E2 & H).
  - lia.
  - intros p [<-|[<-|[]]]; cbn; lia.
  - exact ckt67_ok.
  - discriminate.
  - intros X. apply (f_equal this) in X. discriminate.
  - exact wld67_ok.
  - repeat constructor; cbn; lia.
  - intros c o Hc Ho. destruct Hc as [<-|[]]. cbn in Ho. injection Ho as <-. exact noise0_quiet.
  - exact order_q.
  - rewrite EM in E1. injection E1 as <-. rewrite Ey in E2. injection E2 as <-.
    destruct (H [] sn post El) as (f & z & _ & _ & X0 & G).
    assert (C : Forall2 (carries QcFld sh qle) (sn_devs Aq sn) (els 2)).
    { destruct (sn_devs Aq sn) as [|d1 [|d2 [|d3 [|d4 l]]]]; try discriminate. injection Hd as H1 H2 H3.
      constructor; [|constructor; [|constructor; [|constructor]]].
      - eapply carry_this; [reflexivity|]. rewrite H1. vm_compute. reflexivity.
      - eapply carry_this; [reflexivity|]. rewrite H2. vm_compute. reflexivity.
      - eapply carry_this; [reflexivity|]. rewrite H3. vm_compute. reflexivity. }
    destruct (G (els 2) C) as (I & LI & HI & _).
    + repeat constructor; intros l p v Hl Hin; cbn in Hl; injection Hl as <-; cbn in Hin;
        repeat (destruct Hin as [Hin|Hin]); try contradiction; injection Hin as <- <-; cbn; unfold node_in; lia.
    + repeat constructor.
    + assert (HI' : forall e i, In (e, i) (combine (els 2) I) -> law QcFld sh qle e (sn_x Aq sn) i /\ tr_amps QcFld sh qle e (sn_x Aq sn) = Some i).
      { intros e i Hei. destruct (HI e i Hei) as (A & B). split; [assumption|]. apply B. apply in_combine_l in Hei. destruct Hei as [<-|[<-|[<-|[]]]]; reflexivity. }
      assert (EI : I = [qz (-4); qz 4; qz 4]).
      { destruct I as [|i1 [|i2 [|i3 [|i4 I]]]]; try discriminate.
        destruct (HI' _ _ (or_introl eq_refl)) as (_ & A1). destruct (HI' _ _ (or_intror (or_introl eq_refl))) as (_ & A2).
        destruct (HI' _ _ (or_intror (or_intror (or_introl eq_refl)))) as (_ & A3).
        cbn in A1, A2, A3. unfold dv in *. cbn [fst snd] in *. change (f0 QcFld) with (qz 0) in X0. rewrite ?X0, ?X1, ?X2 in *.
        injection A1 as <-. injection A2 as <-. injection A3 as <-. reflexivity. }
      exists M, y, sn, post, I. do 4 (split; [assumption|]). split; [exact LI|]. split; [assumption|]. split; [assumption|].
      apply (C67_exact_at_convergence QcFld sh qle _ _ _ order_q).
      * apply (HI' _ (qz 4)). rewrite EI. right. right. left. reflexivity.
      * cbn. change (f0 QcFld) with (qz 0) in X0. rewrite X0, X2. apply Qc_is_canon. reflexivity.
Qed.

(* the other theorems meet their hypotheses: a sweep of a resistor through a value that is clamped,
   and of a current controlled current source *)
Example ex_C67_sweep : exists s, foldM (lin_step QcFld sh qle (KR QcFld)) [(qz 2, 3%nat); (Q2Qc (1#100), 1%nat); (qz 4, 2%nat)] (lin_begin QcFld sh qle (KR QcFld) (qz 1)) = Some s /\
  l_c1 QcFld s = Q2Qc (1#4).
Proof.
  destruct (C67_sweep_uses_the_value QcFld sh qle (KR QcFld) (qz 1) [(qz 2, 3%nat); (Q2Qc (1#100), 1%nat)] (qz 4) 1%nat I) as (s & e & E & He & _ & _ & C).
  exists s. split; [exact E|]. rewrite C. cbn in He. injection He as <-. apply Qc_is_canon. vm_compute. reflexivity.
Qed.
(* two windings: the operating point, then two time steps, the second of which reads two older ones *)
Definition hs0 : hist QcFld := mkh QcFld Static (qz 0) (qz 0) (qz 0) mEULER.
Definition hs1 : hist QcFld := mkh QcFld Dynamic (qz 1) (qz 0) (qz 0) mTRAP.
Definition hs2 : hist QcFld := mkh QcFld Dynamic (qz 2) (qz 1) (qz 0) mTRAP.
Definition junkp : fpoly QcFld := mkfp QcFld (qz 7) (qz 8) (qz 9).
Definition mu0 : mut QcFld := let c k := mkch QcFld (mkfp QcFld (qz k) (qz k) (qz k)) junkp junkp zp zp in mkmut QcFld (c 1) (c 2) (c 3).
Example ex_C67_mutual : exists m', foldM (mut_op QcFld qle)
    [MEval QcFld (qz 2) (qz 3) (qz 5) hs0; MAdvance QcFld; MEval QcFld (qz 2) (qz 4) (qz 5) hs1; MAdvance QcFld; MEval QcFld (qz 2) (qz 4) (qz 1) hs2] mu0 = Some m' /\
  mut_ok QcFld hs2 (past_of QcFld (m_y QcFld m')) (past_of QcFld (m_f QcFld m')) (past_of QcFld (m_r QcFld m')).
Proof.
  eexists. split; [reflexivity|].
  apply (C67_mutual_records_agree QcFld qle (qz 2) (qz 3) (qz 5) hs0
    [MAdvance QcFld; MEval QcFld (qz 2) (qz 4) (qz 5) hs1; MAdvance QcFld; MEval QcFld (qz 2) (qz 4) (qz 1) hs2] mu0 _ hs2).
  - reflexivity.
  - intros c [E | [E | E] ]; rewrite E; split; reflexivity.
  - cbn. repeat split; try lia; intros; try discriminate; try lia. exfalso. now apply H0.
  - reflexivity.
  - cbn. intros _. split; [lia|]. intros _. lia.
Qed.
