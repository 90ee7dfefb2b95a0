(* C75: the impedance probes show the impedance of the circuit seen from the nodes named, the probe z
   of an element that of the circuit without it; the powers shown for all elements add up to nothing. *)
Require Import ZArith List Bool Lia Field QArith Qcanon.
Require Import Verif.Loops Verif.FieldSums Verif.Matrix_Model Verif.Matrix_Layout Verif.Matrix_LU Verif.Matrix_Load Verif.Matrix_Exact Verif.Matrix_Spec Verif.Matrix_Main Verif.P_Matrix Verif.Solver_Model
  Verif.Solver_Content Verif.Solver_Proofs Verif.P_Solver Verif.Storage_Model Verif.Elements_Model Verif.Elements_Proofs Verif.P_Elements Verif.AC_Model Verif.AC_Proofs Verif.P_AC
  Verif.Port_Model Verif.Port_Proofs.
Import ListNotations.
Local Open Scope Z_scope.

(* the matrix of the stamps of the devices ds, gmin and the replacements of zero pivots *)
Definition network (K : fld) (g mp : F K) (z : Z -> bool) (ds : list (dev (exA K))) (r c : Z) : F K :=
  fadd K (fadd K (fmul K g (delta K r c)) (devs_m K ds r c)) (if (r =? c) && z r then mp else f0 K).

(* in every observed iteration what the probes substitute in are the factors of the loaded matrix *)
Lemma snapshot_factors : forall (K : fld) s ws junk mp (ds : list (dev (exA K))) m damp rhs v w cmds,
  0 <= s -> (forall p, In p ws -> fst p <= s /\ snd p <= s) -> circuit_ok s ws ds -> m <> tsYES -> mp <> f0 K ->
  world_ok (exA K) (length ds) w -> Forall (cmd_ok (exA K) (length ds)) cmds ->
  (forall c o, In c cmds -> cmd_opts c = Some o -> forall z a, o_noise (exA K) o z a = true -> z = f0 K) ->
  exists M y, start_mat (exA K) s ws junk mp = Some M /\
    foldM (do_cmd (exA K) w) cmds (fresh M m damp rhs v ds) = Some y /\
    forall pre sn post, s_log (exA K) y = pre ++ sn :: post ->
      exists f z, find (sn_full (exA K)) (sn :: post) = Some f /\
        (forall k, 1 <= k <= s -> (z k = true <-> zero_pivot K (aa (sn_mat (exA K) sn)) (sn_lu _ sn) k)) /\
        factors K s (sn_lu _ sn) (network K (sn_gmin _ f) mp z (sn_devs _ sn)).
Proof.
  intros K s ws junk mp ds m damp rhs v w cmds Hs Hin Hd Hm Hmp Hw Hc Hq.
  destruct (setup (exA K) s ws junk mp ds m damp rhs v Hs Hin Hd Hm) as (M & D0 & E & HD0 & Es & HW & HY).
  destruct (cmds_sys (exA K) D0 mp (length ds) HD0 w cmds _ Hw Hc HW HY eq_refl) as (y & Ey & Wy & _).
  exists M, y. split; [assumption|]. split; [assumption|].
  destruct (C08_incremental_equals_full K s ws junk mp ds m damp rhs v w cmds Hs Hin Hd Hm Hw Hc Hq) as (M' & y' & E' & Ey' & H8).
  assert (M' = M) by congruence. subst M'. assert (y' = y) by congruence. subst y'.
  intros pre sn post Elog. destruct (H8 pre sn post Elog) as (f & Hf & Hh).
  pose proof (W_log _ _ _ _ _ Wy) as HF. rewrite Forall_forall in HF.
  destruct (HF sn) as (((Hwf & Hsh) & Sh & Hmpe) & HLU & Shl & c0 & Hx). { rewrite Elog. apply in_or_app. right. now left. }
  assert (Hwl : wf (sn_lu _ sn)) by now apply (shape_wf _ D0).
  assert (Sz : size (sn_lu _ sn) = s) by (destruct Shl; congruence).
  assert (Sza : size (aa (sn_mat (exA K) sn)) = s) by (destruct Sh; congruence).
  assert (Shla : shape (sn_lu _ sn) (aa (sn_mat (exA K) sn))) by (destruct Sh, Shl; split; congruence).
  destruct (pivots K (aa (sn_mat (exA K) sn)) mp (sn_lu _ sn) Hwl Shla Hmp HLU) as (z & Hz & HZ).
  pose proof (rec_diag_ok K _ _ _ Hwl Hmp HLU) as Hdg. rewrite Sz in *.
  exists f, z. split; [assumption|]. split; [assumption|]. split; [assumption|]. split; [assumption|]. split; [assumption|].
  intros r c Hr Hc'. rewrite HZ by lia. unfold Matrix_Main.solved, network. destruct (Hh r Hr) as (P1 & P2). unfold dense. rewrite (P2 c) by lia. reflexivity.
Qed.

(* zraw, and z of a node: between any two nodes, the voltage that appears when a unit of current is put
   into the first and taken out of the second of the network just loaded.  There is such a voltage, and only one. *)
Theorem C75_impedance : forall (K : fld) s ws junk mp (ds : list (dev (exA K))) m damp rhs v w cmds,
  0 <= s -> (forall p, In p ws -> fst p <= s /\ snd p <= s) -> circuit_ok s ws ds -> m <> tsYES -> mp <> f0 K ->
  world_ok (exA K) (length ds) w -> Forall (cmd_ok (exA K) (length ds)) cmds ->
  (forall c o, In c cmds -> cmd_opts c = Some o -> forall z a, o_noise (exA K) o z a = true -> z = f0 K) ->
  exists M y, start_mat (exA K) s ws junk mp = Some M /\
    foldM (do_cmd (exA K) w) cmds (fresh M m damp rhs v ds) = Some y /\
    forall pre sn post, s_log (exA K) y = pre ++ sn :: post ->
      exists f z, find (sn_full (exA K)) (sn :: post) = Some f /\
        (forall k, 1 <= k <= s -> (z k = true <-> zero_pivot K (aa (sn_mat (exA K) sn)) (sn_lu _ sn) k)) /\
        let a := network K (sn_gmin _ f) mp z (sn_devs _ sn) in
        (forall n1 n2, 0 <= n1 <= s -> 0 <= n2 <= s -> exists x, response K s a n1 n2 x /\
          (forall x', response K s a n1 n2 x' -> forall n, 0 <= n <= s -> x' n = x n) /\
          (forall e : element K, outs K e = (n1, n2) -> probe_zraw K e (sn_lu _ sn) = Some (fsub K (x n1) (x n2)))) /\
        forall n, 0 <= n <= s -> exists x, response K s a n 0 x /\ node_z K (sn_lu _ sn) n = Some (x n).
Proof.
  intros K s ws junk mp ds m damp rhs v w cmds Hs Hin Hd Hm Hmp Hw Hc Hq.
  destruct (snapshot_factors K s ws junk mp ds m damp rhs v w cmds Hs Hin Hd Hm Hmp Hw Hc Hq) as (M & y & E & Ey & H).
  exists M, y. split; [assumption|]. split; [assumption|]. intros pre sn post Elog. destruct (H pre sn post Elog) as (f & z & Hf & Hz & HF).
  exists f, z. split; [assumption|]. split; [assumption|]. intros a. split.
  - intros n1 n2 H1 H2. destruct (port_raw K s _ a n1 n2 HF H1 H2) as (x & raw & Rx & Er & HP). exists x. split; [assumption|]. split.
    + intros x' Rx' n Hn. exact (response_unique K s _ a n1 n2 x' x HF Rx' Rx n Hn).
    + intros e Eo. unfold probe_zraw. rewrite Eo. cbn [fst snd]. rewrite (HP (f0 K)), (fz_0 K), Er. reflexivity.
  - intros n Hn. destruct (port_raw K s _ a n 0 HF Hn ltac:(unfold node_in; lia)) as (x & raw & Rx & Er & HP). exists x. split; [assumption|].
    unfold node_z. rewrite (HP (f0 K)), (fz_0 K), Er. destruct Rx as (X0 & _). rewrite X0.
    f_equal. apply (sub_zero K).
Qed.
Print Assumptions C75_impedance.

(* z of an element that is a conductance between its own nodes (resistor, admittance, capacitor,
   inductor without a current node, the sources): if a value is shown it is the voltage that appears
   across its nodes when a unit of current is forced through the network without that element; and
   that voltage is shown whenever it is not zero *)
Theorem C75_z_probe : forall (K : fld) short leb s ws junk mp (ds : list (dev (exA K))) m damp rhs v w cmds,
  0 <= s -> (forall p, In p ws -> fst p <= s /\ snd p <= s) -> circuit_ok s ws ds -> m <> tsYES -> mp <> f0 K ->
  world_ok (exA K) (length ds) w -> Forall (cmd_ok (exA K) (length ds)) cmds ->
  (forall c o, In c cmds -> cmd_opts c = Some o -> forall z a, o_noise (exA K) o z a = true -> z = f0 K) ->
  exists M y, start_mat (exA K) s ws junk mp = Some M /\
    foldM (do_cmd (exA K) w) cmds (fresh M m damp rhs v ds) = Some y /\
    forall pre sn post, s_log (exA K) y = pre ++ sn :: post ->
      exists f z, find (sn_full (exA K)) (sn :: post) = Some f /\
        (forall k, 1 <= k <= s -> (z k = true <-> zero_pivot K (aa (sn_mat (exA K) sn)) (sn_lu _ sn) k)) /\
        forall d1 d d2 e n1 n2, sn_devs _ sn = d1 ++ d :: d2 -> carries K short leb d e -> two_pole K e = true ->
          outs K e = (n1, n2) -> 0 <= n1 <= s -> 0 <= n2 <= s ->
          let others := network K (sn_gmin _ f) mp z (d1 ++ d2) in
          (forall zz, probe_z K short leb e (d_m _ d) (sn_lu _ sn) = Some zz ->
             exists x, response K s others n1 n2 x /\ fsub K (x n1) (x n2) = zz) /\
          (forall x, response K s others n1 n2 x -> fsub K (x n1) (x n2) <> f0 K ->
             probe_z K short leb e (d_m _ d) (sn_lu _ sn) = Some (fsub K (x n1) (x n2))).
Proof.
  intros K short leb s ws junk mp ds m damp rhs v w cmds Hs Hin Hd Hm Hmp Hw Hc Hq.
  destruct (snapshot_factors K s ws junk mp ds m damp rhs v w cmds Hs Hin Hd Hm Hmp Hw Hc Hq) as (M & y & E & Ey & H).
  exists M, y. split; [assumption|]. split; [assumption|]. intros pre sn post Elog. destruct (H pre sn post Elog) as (f & z & Hf & Hz & HF).
  exists f, z. split; [assumption|]. split; [assumption|]. intros d1 d d2 e n1 n2 Ed C Tp Eo H1 H2 others.
  destruct (slots_eval K short leb e _ C) as (st & Est). unfold probe_z. rewrite Est, Eo. cbn [bind fst snd].
  rewrite Ed in HF.
  destruct (port_without K s (sn_lu _ sn) _ others (fmul K (d_m _ d) (fadd K (cc1 K (e_m K st)) (e_loss K st))) n1 n2 HF H1 H2) as (G1 & G2).
  - intros r c Hr Hc'. unfold network, others, network. rewrite devs_split, (dev_own K short leb d e st r c C Tp Est), Eo. cbn [fst snd]. apply (add_nn K).
  - split; [exact G1|]. intros x Rx Nz. apply G2; [assumption|now left].
Qed.
Print Assumptions C75_z_probe.

(* the same for the ac analysis: at every frequency of every sweep *)
Theorem C75_z_probe_ac : forall (K : fld) short leb small op s junk mp (xs : list (F K * ael K)) jws,
  0 <= s -> mp <> f0 K -> order_ok K short leb -> small (f0 K) = true ->
  (forall m x, In (m, x) xs -> within K s (ae K x) /\ ready K short leb op (ae K x) (a_set K x) (a_in K x)) ->
  exists M l, start_mat (exA K) s (flat_map (fun q => iwant K (ae K (snd q))) xs) junk mp = Some M /\
    ac_sweep K short leb small op jws xs M = Some l /\ length l = length jws /\
    forall n jw Mx v, nth_error jws n = Some jw -> nth_error l n = Some (Mx, v) ->
      exists z, forall xs1 m x xs2 n1 n2, xs = xs1 ++ (m, x) :: xs2 -> two_pole K (ae K x) = true -> outs K (ae K x) = (n1, n2) ->
        exists l1 l2 k1 k2,
          all_slots K (do_slots K short leb small jw op) xs = Some l1 /\ all_slots K (load_slots_ac K short leb small jw op) xs = Some l2 /\
          (forall r, 1 <= r <= s -> (z r = true <-> coef K (l1 ++ l2) r r =
             fsum K 1 r (fun k => fmul K (lower K (dense K (aa Mx)) r k) (upper1 K (dense K (aa Mx)) k r)))) /\
          all_slots K (do_slots K short leb small jw op) (xs1 ++ xs2) = Some k1 /\
          all_slots K (load_slots_ac K short leb small jw op) (xs1 ++ xs2) = Some k2 /\
          let others r c := fadd K (coef K (k1 ++ k2) r c) (if r =? c then if z r then mp else f0 K else f0 K) in
          (forall zz, probe_z_ac K short leb small jw op x m (aa Mx) = Some zz ->
             exists u, response K s others n1 n2 u /\ fsub K (u n1) (u n2) = zz) /\
          (forall u, response K s others n1 n2 u -> fsub K (u n1) (u n2) <> f0 K ->
             probe_z_ac K short leb small jw op x m (aa Mx) = Some (fsub K (u n1) (u n2))).
Proof.
  intros K short leb small op s junk mp xs jws Hs Hmp Ho Hsm Hx. set (ws := flat_map (fun q => iwant K (ae K (snd q))) xs).
  assert (Hin : forall p, In p ws -> fst p <= s /\ snd p <= s).
  { intros p Hp. apply in_flat_map in Hp. destruct Hp as ((m & x) & Hq & Hp). destruct (Hx m x Hq) as (W & _).
    now apply (iwant_within K s (ae K x)). }
  destruct (start_mat_facts (exA K) s ws junk mp Hs Hin) as (M & EM & Es & Hmw & Em & _ & Hok).
  assert (Hw : wf (aa M)) by apply Hmw.
  assert (HS : Sys (exA K) (aa M) mp M) by (split; [assumption|]; split; [apply shape_refl|assumption]).
  assert (Pl : forall p, wanted_place (size (aa M)) ws p -> place_ok (exA K) (aa M) p).
  { intros p Hp. rewrite Es in Hp. destruct p; cbn [place_ok wanted_place] in *.
    - destruct Hp as (H1 & H2). split; apply Hok; assumption.
    - apply Hok. exact Hp.
    - rewrite Es. exact Hp.
    - apply Hok. exact Hp.
    - apply Hok. exact Hp.
    - rewrite Es. exact Hp.
    - apply Hok. exact Hp.
    - apply Hok. exact Hp. }
  assert (R : Forall (el_ready K short leb op) xs). { apply Forall_forall. intros (m & x) Hq. apply (Hx m x Hq). }
  assert (W : Forall (fun q => within K (size (aa M)) (ae K (snd q)) /\ incl (iwant K (ae K (snd q))) ws) xs).
  { apply Forall_forall. intros (m & x) Hq. cbn [snd]. rewrite Es. split; [apply (Hx m x Hq)|]. intros p Hp. apply in_flat_map. exists (m, x). now split. }
  destruct (sweep_spec K short leb small op Ho Hsm (aa M) mp ws xs Hw Hmp Pl R W jws M HS) as (l & El & Ll & Hl).
  exists M, l. split; [assumption|]. split; [assumption|]. split; [assumption|]. intros n jw Mx v En Eln.
  destruct (Hl n jw Mx v En Eln) as (Mb & Sb & Ef).
  destruct (all_defined K short leb small op Ho Hsm jw (size (aa M)) ws xs R W) as (l1 & l2 & E1 & E2 & C & _).
  unfold ac_freq in Ef. rewrite E1, E2 in Ef. cbn [bind] in Ef. destruct (ac_solve (exA K) l1 l2 Mb) as [(D & u)|] eqn:Eso; [|discriminate Ef]. cbn [bind fst snd] in Ef.
  assert (Ea : aa Mx = D) by (injection Ef as E3 E4; now rewrite <- E3).
  destruct (ac_solve_lu K (aa M) mp l1 l2 Mb D u Sb Hmp) as (z & Hz & HF); [|exact Eso|].
  { intros p q Hp. apply Pl. now apply (C p q). }
  rewrite Es in *. exists z. intros xs1 m x xs2 n1 n2 Ex Tp Eo. subst xs.
  destruct (all_slots_split K _ xs1 m x xs2 l1 E1) as (lx1 & k1 & F1 & G1 & S1). destruct (all_slots_split K _ xs1 m x xs2 l2 E2) as (lx2 & k2 & F2 & G2 & S2).
  exists l1, l2, k1, k2. split; [assumption|]. split; [assumption|]. split; [rewrite Ea; exact Hz|]. split; [assumption|]. split; [assumption|]. intros others.
  destruct (ac_state K short leb small jw op x) as [p|] eqn:Ep.
  2: { unfold load_slots_ac in F2. rewrite Ep in F2. discriminate F2. }
  pose proof (Hx m x (in_elt (m, x) xs1 xs2)) as (Wx & _).
  assert (N1 : 0 <= n1 <= s /\ 0 <= n2 <= s).
  { unfold within in Wx. destruct (ae K x); cbn [two_pole] in Tp; try discriminate Tp; cbn [outs] in Eo; injection Eo as <- <-; split; apply Wx; cbn; tauto. }
  destruct N1 as (N1 & N2). unfold probe_z_ac. rewrite Ep, Eo, Ea. cbn [bind fst snd]. fold (adm_ac K x (fst p)).
  destruct (port_without K s D _ others (fmul K m (adm_ac K x (fst p))) n1 n2 HF N1 N2) as (P1 & P2).
  - intros r c Hr Hc. unfold others. change (coef K (l1 ++ l2) r c) with (load_m K (l1 ++ l2) r c). change (coef K (k1 ++ k2) r c) with (load_m K (k1 ++ k2) r c).
    rewrite !load_app, S1, S2. pose proof (own_ac K short leb small jw op x p lx1 lx2 r c Tp Ep F1 F2) as Q. rewrite Eo in Q. cbn [fst snd] in Q. now apply coef_nn.
  - split; [exact P1|]. intros u' Ru Nz. apply P2; [assumption|now left].
Qed.
Print Assumptions C75_z_probe_ac.

Lemma Forall2_in_r : forall (X Y : Type) (R : X -> Y -> Prop) l l', Forall2 R l l' -> forall e, In e l' -> exists d, R d e.
Proof. intros X Y R l l' H. induction H as [|a b l l' Hab H IH]; intros e He; [destruct He|]. destruct He as [<-|He]; [now exists a|now apply IH]. Qed.
(* the powers shown for the elements (each counted with its multiplicity), and those in gmin and in
   the replacements of zero pivots, add up to nothing.  winding tells the rows of the matrix that
   stand for currents of inductors from those of nodes; a mutual inductance takes no part. *)
Theorem C75_power_balance : forall (K : fld) short leb s ws junk mp (ds : list (dev (exA K))) m damp rhs v w cmds,
  0 <= s -> (forall p, In p ws -> fst p <= s /\ snd p <= s) -> circuit_ok s ws ds -> m <> tsYES -> mp <> f0 K ->
  world_ok (exA K) (length ds) w -> Forall (cmd_ok (exA K) (length ds)) cmds ->
  (forall c o, In c cmds -> cmd_opts c = Some o -> forall z a, o_noise (exA K) o z a = true -> z = f0 K) ->
  order_ok K short leb ->
  exists M y, start_mat (exA K) s ws junk mp = Some M /\
    foldM (do_cmd (exA K) w) cmds (fresh M m damp rhs v ds) = Some y /\
    forall pre sn post, s_log (exA K) y = pre ++ sn :: post ->
      exists f z, find (sn_full (exA K)) (sn :: post) = Some f /\
        (forall k, 1 <= k <= s -> (z k = true <-> zero_pivot K (aa (sn_mat (exA K) sn)) (sn_lu _ sn) k)) /\
        forall es winding, Forall2 (carries K short leb) (sn_devs _ sn) es -> Forall (nodes_in K short leb s) es -> Forall (elem_ok K) es ->
          Forall (rows_ok K winding) es -> Forall (fun e => probed K e || coupling K e = true) es ->
          exists P, length P = length es /\
            (forall e p, In (e, p) (combine es P) -> if coupling K e then p = f0 K else probe_p K short leb e (sn_x _ sn) = Some p) /\
            fadd K (tot K s (fun r => if winding r then f0 K else
                      fmul K (fadd K (sn_gmin _ f) (if z r then mp else f0 K)) (fmul K (sn_x _ sn r) (sn_x _ sn r))))
                   (lsum K (map (fun q => fmul K (d_m (exA K) (fst q)) (snd q)) (combine (sn_devs _ sn) P))) = f0 K.
Proof.
  intros K short leb s ws junk mp ds m damp rhs v w cmds Hs Hin Hd Hm Hmp Hw Hc Hq Ho.
  destruct (C67_solved_circuit K short leb s ws junk mp ds m damp rhs v w cmds Hs Hin Hd Hm Hmp Hw Hc Hq Ho) as (M & y & E & Ey & H).
  exists M, y. split; [assumption|]. split; [assumption|]. intros pre sn post Elog. destruct (H pre sn post Elog) as (f & z & Hf & Hz & X0 & G).
  exists f, z. split; [assumption|]. split; [assumption|]. intros es winding C N Ok R Pr. destruct (G es C N Ok) as (I & LI & HI & HK).
  set (x := sn_x (exA K) sn) in *.
  set (pw := fun q : element K * F K => if coupling K (fst q) then f0 K else fmul K (snd q) (dv K x (outs K (fst q)))).
  exists (map pw (combine es I)). split; [rewrite map_length, combine_length; lia|]. split.
  - clear HK C N Ok R. intros e p Hep.
    assert (Q : exists i, In (e, i) (combine es I) /\ p = pw (e, i)).
    { clear HI Pr. revert I LI Hep. induction es as [|e0 es IH]; intros [|i0 I] LI Hep; try discriminate; [destruct Hep|]. cbn [combine map] in Hep. destruct Hep as [Q|Hep].
      - injection Q as <- <-. exists i0. split; [now left|reflexivity].
      - destruct (IH I ltac:(cbn in LI; lia) Hep) as (i & Hi & Q). exists i. split; [now right|assumption]. }
    destruct Q as (i & Hi & ->). unfold pw. cbn [fst snd]. destruct (coupling K e) eqn:Ce; [reflexivity|].
    rewrite Forall_forall in Pr. pose proof (Pr e (in_combine_l _ _ _ _ Hi)) as Pe. rewrite Ce, orb_false_r in Pe.
    unfold probe_p. rewrite (proj2 (HI e i Hi) Pe). reflexivity.
  - assert (Lm : lsum K (map (fun q => fmul K (d_m (exA K) (fst q)) (snd q)) (combine (sn_devs (exA K) sn) (map pw (combine es I)))) =
      lsum K (map (fun q => fmul K (d_m (exA K) (fst q)) (if coupling K (fst (snd q)) then f0 K else fmul K (snd (snd q)) (dv K x (outs K (fst (snd q))))))
        (combine (sn_devs (exA K) sn) (combine es I)))).
    { clear. f_equal. generalize (combine es I) as l. generalize (sn_devs (exA K) sn) as ds0. induction ds0 as [|d0 ds0 IH]; intros [|q l]; [reflexivity|reflexivity|reflexivity|].
      cbn [combine map fst snd]. rewrite IH. reflexivity. }
    rewrite Lm. apply (balance K winding s x (fun r => fadd K (sn_gmin _ f) (if z r then mp else f0 K))); [exact X0| |exact HK].
    intros d e i Hdi. apply in_combine_r in Hdi. apply in_combine_l in Hdi. rewrite Forall_forall in R, N. split; [now apply R|].
    intros Ce. destruct (Forall2_in_r _ _ _ _ _ C e Hdi) as (d' & Cd).
    exact (outs_in K short leb s e _ Ce (N e Hdi) Cd).
Qed.
Print Assumptions C75_power_balance.

(* p is the difference of what pd and ps show, which are not negative and not both above zero *)
Theorem C75_power_split : forall (K : fld) short leb (e : element K) x p,
  (forall a b, leb a b = true -> leb b a = true -> a = b) -> (forall a b, leb a b = true \/ leb b a = true) ->
  (forall a, leb a (f0 K) = true -> leb (f0 K) (fopp K a) = true) ->
  probe_p K short leb e x = Some p ->
  exists pd ps, probe_pd K short leb e x = Some pd /\ probe_ps K short leb e x = Some ps /\
    p = fsub K pd ps /\ leb (f0 K) pd = true /\ leb (f0 K) ps = true /\ (pd = f0 K \/ ps = f0 K).
Proof.
  intros K short leb e x p An To Ne E. unfold probe_pd, probe_ps. rewrite E. cbn [bind]. eexists. eexists. split; [reflexivity|]. split; [reflexivity|].
  unfold ltb. assert (R0 : leb (f0 K) (f0 K) = true) by (destruct (To (f0 K) (f0 K)); assumption).
  destruct (leb p (f0 K)) eqn:E1, (leb (f0 K) p) eqn:E2; cbn [negb].
  - rewrite (An p (f0 K) E1 E2). split; [symmetry; apply sub_zero|]. split; [assumption|]. split; [assumption|now left].
  - split; [symmetry; apply sub_opp|]. split; [assumption|]. split; [now apply Ne|now left].
  - split; [symmetry; apply sub_zero|]. split; [assumption|]. split; [assumption|now right].
  - destruct (To p (f0 K)); congruence.
Qed.
Print Assumptions C75_power_split.

(* ---------------------------------------------------------------------- *)
(* over the rationals, with shortckt = 1/10 *)
Local Notation Aq := (exA QcFld).
Lemma some_eq : forall (X : Type) (a b : X), Some a = Some b -> a = b. Proof. intros X a b H. congruence. Qed.
Lemma pair_eq : forall (X Y : Type) (a c : X) (b d : Y), (a, b) = (c, d) -> a = c /\ b = d. Proof. intros X Y a c b d H. split; congruence. Qed.
Lemma cons_eq : forall (X : Type) (a b : X) l m, a :: l = b :: m -> a = b /\ l = m. Proof. intros X a b l m H. split; congruence. Qed.
Lemma some_this : forall (o : option Qc) q, option_map this o = Some q -> o = Some (Q2Qc q).
Proof. intros [a|] q H; [|discriminate]. injection H as H. f_equal. apply Qc_is_canon. cbn. rewrite <- H. symmetry. apply Qred_correct. Qed.
(* conductances of 1 at the nodes 1 and 2, and a current of half the voltage of node 2 out of node 1.
   The impedance at node 1 without the controlled source is 1 (with it, too); z of the source shows 2 *)
Definition els75 : list (element QcFld) :=
  [ EY QcFld 1 0 (Lin QcFld (qz 1)) (qz 0); EY QcFld 2 0 (Lin QcFld (qz 1)) (qz 0); EG QcFld 1 0 2 0 (Lin QcFld (Q2Qc (1#2))) (qz 0) ].
Definition ckt75 : list (dev Aq) := map (fun e => dev_of e false) els75.
Definition wld75 : world Aq := mkworld Aq (fun _ => []) (fun t => mkstep Aq [] (1 <=? t)).
Lemma V75 : forall d1 d2, carries QcFld sh qle d1 (EY QcFld 1 0 (Lin QcFld (qz 1)) (qz 0)) -> carries QcFld sh qle d2 (EY QcFld 2 0 (Lin QcFld (qz 1)) (qz 0)) ->
  d_m Aq d1 = qz 1 -> d_m Aq d2 = qz 1 -> forall r c, devs_m QcFld [d1; d2] r c = fadd QcFld (fmul QcFld (fmul QcFld (qz 1) (fadd QcFld (qz 1) (f0 QcFld))) (across QcFld 1 0 r c))
    (fadd QcFld (fmul QcFld (fmul QcFld (qz 1) (fadd QcFld (qz 1) (f0 QcFld))) (across QcFld 2 0 r c)) (f0 QcFld)).
Proof.
  intros d1 d2 C1 C2 Em1 Em2 r c. unfold devs_m. cbn [map].
    rewrite (dev_own QcFld sh qle d1 _ _ r c C1 eq_refl eq_refl), (dev_own QcFld sh qle d2 _ _ r c C2 eq_refl eq_refl), Em1, Em2.
    cbn [e_m e_loss cc1 outs fst snd adm_m0 lsum fold_right]. reflexivity.
Qed.
Lemma S75 : forall r, 1 <= r <= 2 -> fsum QcFld 1 (2 + 1) (fun c => fmul QcFld (fadd QcFld (fmul QcFld (fmul QcFld (qz 1) (fadd QcFld (qz 1) (f0 QcFld))) (across QcFld 1 0 r c))
    (fadd QcFld (fmul QcFld (fmul QcFld (qz 1) (fadd QcFld (qz 1) (f0 QcFld))) (across QcFld 2 0 r c)) (f0 QcFld))) (if c =? 1 then qz 1 else qz 0)) =
   fsub QcFld (delta QcFld r 1) (delta QcFld r 0).
Proof. intros r Hr. assert (r = 1 \/ r = 2) as [->| ->] by lia; apply Qc_is_canon; vm_compute; reflexivity. Qed.
Theorem C75_z_controlled_refuted : exists M y sn post d1 d2 d x,
  start_mat Aq 2 ws1 jq (qz 1) = Some M /\ foldM (do_cmd Aq wld75) cmd67 (fresh M tsBAD (qz 1) jq jq ckt75) = Some y /\
  s_log Aq y = sn :: post /\ sn_devs Aq sn = [d1; d2; d] /\
  carries QcFld sh qle d (EG QcFld 1 0 2 0 (Lin QcFld (Q2Qc (1#2))) (qz 0)) /\ d_m Aq d = qz 1 /\
  response QcFld 2 (devs_m QcFld [d1; d2]) 1 0 x /\ fsub QcFld (x 1) (x 0) = qz 1 /\
  probe_z QcFld sh qle (EG QcFld 1 0 2 0 (Lin QcFld (Q2Qc (1#2))) (qz 0)) (d_m Aq d) (sn_lu Aq sn) = Some (qz 2).
Proof.
  assert (X : option_map (fun q => match s_log Aq (snd q) with
      | sn :: post => Some (option_map this (probe_z QcFld sh qle (EG QcFld 1 0 2 0 (Lin QcFld (Q2Qc (1#2))) (qz 0)) (qz 1) (sn_lu Aq sn)),
          map (fun d => (this (d_m Aq d), map (fun sl => (s_place Aq sl, this (s_old Aq sl))) (d_slots Aq d))) (sn_devs Aq sn)) | [] => None end)
    (let* M := start_mat Aq 2 ws1 jq (qz 1) in let* y := foldM (do_cmd Aq wld75) cmd67 (fresh M tsBAD (qz 1) jq jq ckt75) in Some (M, y)) =
    Some (Some (Some (2#1), [(1#1, [(PShunt 1 0, 1#1); (PSource 1 0, 0#1)]); (1#1, [(PShunt 2 0, 1#1); (PSource 2 0, 0#1)]); (1#1, [(PActive 1 0 2 0, 1#2); (PSource 1 0, 0#1)])])%Q)).
  { vm_compute. reflexivity. }
  apply om_inv in X. destruct X as ((M & y) & E & H). apply bind_inv in E. destruct E as (M' & EM & E).
  apply bind_inv in E. destruct E as (y' & Ey & E). injection E as -> ->. cbn [snd] in H.
  destruct (s_log Aq y) as [|sn post] eqn:El; [discriminate|]. injection H as H1 H2.
  destruct (sn_devs Aq sn) as [|d1 [|d2 [|d3 [|d4 l]]]] eqn:Ed; try discriminate. injection H2 as M1 S1 M2 S2 M3 S3.
  exists M, y, sn, post, d1, d2, d3, (fun n => if n =? 1 then qz 1 else qz 0).
  split; [exact EM|]. split; [exact Ey|]. split; [exact El|]. split; [exact Ed|].
  assert (Em : d_m Aq d3 = qz 1) by (rewrite (qc_this _ _ M3); now apply Qc_is_canon).
  split; [eapply carry_this; [reflexivity|]; rewrite S3; vm_compute; reflexivity|]. split; [exact Em|].
  split; [|split; [apply Qc_is_canon; reflexivity|rewrite Em, (some_this _ _ H1); f_equal; apply Qc_is_canon; reflexivity]].
  split; [reflexivity|].
  assert (C1 : carries QcFld sh qle d1 (EY QcFld 1 0 (Lin QcFld (qz 1)) (qz 0))) by (eapply carry_this; [reflexivity|]; rewrite S1; vm_compute; reflexivity).
  assert (C2 : carries QcFld sh qle d2 (EY QcFld 2 0 (Lin QcFld (qz 1)) (qz 0))) by (eapply carry_this; [reflexivity|]; rewrite S2; vm_compute; reflexivity).
  assert (Em1 : d_m Aq d1 = qz 1) by (rewrite (qc_this _ _ M1); now apply Qc_is_canon).
  assert (Em2 : d_m Aq d2 = qz 1) by (rewrite (qc_this _ _ M2); now apply Qc_is_canon).
  intros r Hr. unfold tot. rewrite <- (S75 r Hr). apply fsum_ext. intros c _. now rewrite (V75 d1 d2 C1 C2 Em1 Em2).
Qed.
Print Assumptions C75_z_controlled_refuted.

(* the circuit of C67: a source of 5 with 1/10 ohm, 0.65 ohm from 1 to 2, the admittance i = v*v at
   v = 2 from 2 to ground.  Without the admittance node 2 sees 0.75 ohm *)
Example ex_C75 : exists M y sn post d1 d2 d3 x P, start_mat Aq 2 ws1 jq (qz 1) = Some M /\
  foldM (do_cmd Aq wld67) cmd67 (fresh M tsBAD (qz 1) jq jq ckt67) = Some y /\ s_log Aq y = sn :: post /\
  sn_devs Aq sn = [d1; d2; d3] /\
  probe_z QcFld sh qle (EY QcFld 2 0 (Fun QcFld sq) (qz 2)) (d_m Aq d3) (sn_lu Aq sn) = Some (Q2Qc (3#4)) /\
  response QcFld 2 (network QcFld (qz 0) (qz 1) (fun _ => false) [d1; d2]) 2 0 x /\ fsub QcFld (x 2) (x 0) = Q2Qc (3#4) /\
  node_z QcFld (sn_lu Aq sn) 2 = Some (Q2Qc (3#16)) /\
  P = [Q2Qc ((-184)#10); Q2Qc (104#10); qz 8] /\ lsum QcFld P = qz 0 /\
  (forall e p, In (e, p) (combine (els 2) P) -> probe_p QcFld sh qle e (sn_x Aq sn) = Some p).
Proof.
  assert (X : option_map (fun q => match s_log Aq (snd q) with
      | sn :: post => Some (option_map this (probe_z QcFld sh qle (EY QcFld 2 0 (Fun QcFld sq) (qz 2)) (qz 1) (sn_lu Aq sn)), option_map this (node_z QcFld (sn_lu Aq sn) 2),
          map (fun e => option_map this (probe_p QcFld sh qle e (sn_x Aq sn))) (els 2),
          map (fun d => (this (d_m Aq d), map (fun sl => (s_place Aq sl, this (s_old Aq sl))) (d_slots Aq d))) (sn_devs Aq sn)) | [] => None end)
    (let* M := start_mat Aq 2 ws1 jq (qz 1) in let* y := foldM (do_cmd Aq wld67) cmd67 (fresh M tsBAD (qz 1) jq jq ckt67) in Some (M, y)) =
    Some (Some (Some (3#4), Some (3#16), [Some ((-92)#5); Some (52#5); Some (8#1)],
      [(1#1, [(PShunt 1 0, 10#1); (PSource 1 0, (-50)#1)]); (1#1, [(PShunt 1 2, 20#13); (PSource 1 2, 0#1)]); (1#1, [(PShunt 2 0, 4#1); (PSource 2 0, (-4)#1)])])%Q)).
  { vm_compute. reflexivity. }
  apply om_inv in X. destruct X as ((M & y) & E & H). apply bind_inv in E. destruct E as (M' & EM & E).
  apply bind_inv in E. destruct E as (y' & Ey & E). injection E as -> ->. cbn [snd] in H.
  destruct (s_log Aq y) as [|sn post] eqn:El; [discriminate|]. apply some_eq in H. apply pair_eq in H. destruct H as (H & Hd). apply pair_eq in H. destruct H as (H & HP). apply pair_eq in H. destruct H as (H1 & H2).
  cbn [els map] in HP. apply cons_eq in HP. destruct HP as (P1 & HP). apply cons_eq in HP. destruct HP as (P2 & HP). apply cons_eq in HP. destruct HP as (P3 & _).
  destruct (sn_devs Aq sn) as [|d1 [|d2 [|d3 [|d4 l]]]] eqn:Ed; try discriminate. injection Hd as M1 S1 M2 S2 M3 S3.
  assert (Em1 : d_m Aq d1 = qz 1) by (rewrite (qc_this _ _ M1); now apply Qc_is_canon).
  assert (Em2 : d_m Aq d2 = qz 1) by (rewrite (qc_this _ _ M2); now apply Qc_is_canon).
  assert (Em : d_m Aq d3 = qz 1) by (rewrite (qc_this _ _ M3); now apply Qc_is_canon).
  assert (C1 : carries QcFld sh qle d1 (EV QcFld 1 0 (qz 5))) by (eapply carry_this; [reflexivity|]; rewrite S1; vm_compute; reflexivity).
  assert (C2 : carries QcFld sh qle d2 (ER QcFld 1 2 (Lin QcFld (Q2Qc (65#100))) (qz 0))) by (eapply carry_this; [reflexivity|]; rewrite S2; vm_compute; reflexivity).
  exists M, y, sn, post, d1, d2, d3, (fun n => if n =? 1 then Q2Qc (1#10) else if n =? 2 then Q2Qc (3#4) else qz 0), [Q2Qc ((-184)#10); Q2Qc (104#10); qz 8].
  split; [exact EM|]. split; [exact Ey|]. split; [exact El|]. split; [exact Ed|]. split; [rewrite Em, (some_this _ _ H1); reflexivity|].
  split; [|split; [apply Qc_is_canon; reflexivity|split; [rewrite (some_this _ _ H2); reflexivity|split; [reflexivity|split; [apply Qc_is_canon; reflexivity|]]]]].
  - split; [reflexivity|].
    assert (V : forall r c, network QcFld (qz 0) (qz 1) (fun _ => false) [d1; d2] r c =
      fadd QcFld (fadd QcFld (fmul QcFld (qz 0) (delta QcFld r c)) (fadd QcFld (fmul QcFld (fmul QcFld (qz 1) (fadd QcFld (qz 0) (qz 10))) (across QcFld 1 0 r c))
        (fadd QcFld (fmul QcFld (fmul QcFld (qz 1) (fadd QcFld (Q2Qc (20#13)) (qz 0))) (across QcFld 1 2 r c)) (qz 0)))) (if (r =? c) && false then qz 1 else qz 0)).
    { intros r c. unfold network, devs_m. cbn [map].
      rewrite (dev_own QcFld sh qle d1 _ _ r c C1 eq_refl eq_refl), (dev_own QcFld sh qle d2 _ _ r c C2 eq_refl eq_refl), Em1, Em2. cbn [e_m e_loss cc1 outs fst snd res_m0].
      replace (fdiv QcFld (f1 QcFld) sh) with (qz 10) by (apply Qc_is_canon; reflexivity).
      replace (fdiv QcFld (f1 QcFld) (res_value QcFld sh qle (Q2Qc (65 # 100)))) with (Q2Qc (20#13)) by (apply Qc_is_canon; reflexivity). reflexivity. }
    intros r Hr. unfold tot. rewrite (fsum_ext QcFld 1 (2 + 1) _ _ (fun c _ => f_equal2 (fmul QcFld) (V r c) eq_refl)).
    clear - Hr. assert (r = 1 \/ r = 2) as [->| ->] by lia; apply Qc_is_canon; vm_compute; reflexivity.
  - intros e p Hp. cbn [els combine] in Hp. destruct Hp as [Q|[Q|[Q|[]]]]; injection Q as <- <-; [rewrite (some_this _ _ P1)|rewrite (some_this _ _ P2)|rewrite (some_this _ _ P3)]; f_equal; apply Qc_is_canon; reflexivity.
Qed.
(* the circuit of C68 at the first frequency: the impedance seen by the capacitor *)
Definition cap68 : ael GFld := mkael GFld (EC GFld 2 0 (Lin GFld (gr 1)) (gr 0) st0 ps0) (mkset GFld None true) dcset.
Example ex_C75_ac : exists M l Mx v zz k1 k2 u, start_mat (exA GFld) 5 ws68 jg (gr 1) = Some M /\
  ac_sweep GFld gsh gle gsmall true [gq 0 1 1 1; gq 0 1 2 1] ckt68 M = Some l /\ nth_error l 0 = Some (Mx, v) /\
  probe_z_ac GFld gsh gle gsmall (gq 0 1 1 1) true cap68 (gr 1) (aa Mx) = Some zz /\ zz <> gr 0 /\
  all_slots GFld (do_slots GFld gsh gle gsmall (gq 0 1 1 1) true) (firstn 2 ckt68 ++ skipn 3 ckt68) = Some k1 /\
  all_slots GFld (load_slots_ac GFld gsh gle gsmall (gq 0 1 1 1) true) (firstn 2 ckt68 ++ skipn 3 ckt68) = Some k2 /\
  u 0 = gr 0 /\ u 2 = zz.
Proof.
  destruct (C75_z_probe_ac GFld gsh gle gsmall true 5 jg (gr 1) ckt68 [gq 0 1 1 1; gq 0 1 2 1]) as (M & l & EM & El & Ll & H).
  - lia.
  - gne.
  - exact order_g.
  - reflexivity.
  - exact ckt68_ok.
  - destruct l as [|(Mx & v) l]; [discriminate|]. destruct (H 0%nat (gq 0 1 1 1) Mx v eq_refl eq_refl) as (z & Hz).
    destruct (Hz (firstn 2 ckt68) (gr 1) cap68 (skipn 3 ckt68) 2 0 eq_refl eq_refl eq_refl) as (l1 & l2 & k1 & k2 & E1 & E2 & _ & G1 & G2 & P1 & P2).
    assert (R : run68 = Some ((Mx, v) :: l)) by (unfold run68; change (start_mat (exA GFld) 5 ws68 jg (gr 1)) with (start_mat (exA GFld) 5 (flat_map (fun q : F GFld * ael GFld => iwant GFld (ae GFld (snd q))) ckt68) jg (gr 1)); rewrite EM; exact El).
    assert (Q : match run68 with Some ((Mr, _) :: _) =>
      match probe_z_ac GFld gsh gle gsmall (gq 0 1 1 1) true cap68 (gr 1) (aa Mr) with Some zz => negb (gz (gsub zz (gr 0))) | None => false end | _ => false end = true) by (vm_compute; reflexivity).
    rewrite R in Q. destruct (probe_z_ac GFld gsh gle gsmall (gq 0 1 1 1) true cap68 (gr 1) (aa Mx)) as [zz|] eqn:Ep; [|discriminate Q].
    destruct (P1 zz eq_refl) as (u & (U0 & _) & Uz). exists M, ((Mx, v) :: l), Mx, v, zz, k1, k2, u.
    split; [exact EM|]. split; [exact El|]. split; [reflexivity|]. split; [exact Ep|]. split; [apply g_ne; now apply negb_true_iff|].
    split; [exact G1|]. split; [exact G2|]. split; [exact U0|]. rewrite <- Uz, U0. symmetry. apply (sub_zero GFld).
Qed.
(* a source that delivers 20 *)
Example ex_C75_split : exists pd ps, probe_pd QcFld sh qle (EI QcFld 0 1 (qz 4)) (fun n => if n =? 1 then qz 5 else qz 0) = Some pd /\
  probe_ps QcFld sh qle (EI QcFld 0 1 (qz 4)) (fun n => if n =? 1 then qz 5 else qz 0) = Some ps /\ qz (-20) = fsub QcFld pd ps /\
  qle (qz 0) pd = true /\ qle (qz 0) ps = true.
Proof.
  destruct (C75_power_split QcFld sh qle (EI QcFld 0 1 (qz 4)) (fun n => if n =? 1 then qz 5 else qz 0) (qz (-20))) as (pd & ps & E1 & E2 & E3 & E4 & E5 & _).
  - intros a b. unfold qle. destruct (Qclt_le_dec b a), (Qclt_le_dec a b); try discriminate. intros _ _. now apply Qcle_antisym.
  - intros a b. unfold qle. destruct (Qclt_le_dec b a) as [L|L]; [|now left]. destruct (Qclt_le_dec a b) as [L'|L']; [|now right]. exfalso. exact (Qclt_not_le _ _ L (Qclt_le_weak _ _ L')).
  - intros a. unfold qle. change (f0 QcFld) with 0%Qc. destruct (Qclt_le_dec 0 a) as [L|L]; [discriminate|]. intros _. destruct (Qclt_le_dec (fopp QcFld a) 0) as [L'|L']; [|reflexivity].
    exfalso. change (fopp QcFld a) with (- a)%Qc in L'. apply Qcopp_le_compat in L. replace (- 0)%Qc with 0%Qc in L by ring. exact (Qclt_not_le _ _ L' L).
  - vm_compute. f_equal.
  - exists pd, ps. now repeat split.
Qed.
