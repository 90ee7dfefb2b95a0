(* C08, C09, C58, C59: the Newton iteration loop.  What the devices compute is an arbitrary stream
   (world); the loop, the loading, the factorisation and the substitution are the program's. *)
Require Import ZArith QArith Qcanon List Bool Lia.
Require Import Verif.Loops Verif.FieldSums Verif.Matrix_Model Verif.Matrix_Layout Verif.Matrix_LU Verif.Matrix_Load
  Verif.Matrix_Exact Verif.Matrix_Spec Verif.Matrix_Main Verif.Solver_Model Verif.Solver_Proofs Verif.Solver_Content Verif.Solver_Loaded Verif.P_Matrix.
Import ListNotations.
Local Open Scope Z_scope.

(* every pair of rows a device loads was declared, and its sources are at existing rows *)
Definition place_wanted (s : Z) (ws : list (Z * Z)) (p : place) : Prop :=
  match p with
  | PInode o1 o2 i1 => wanted s ws o1 i1 /\ wanted s ws o2 i1
  | PShunt o1 o2 => wanted s ws o1 o1 /\ wanted s ws o2 o2 /\ wanted s ws o1 o2
  | PSource o1 o2 => 0 <= o1 <= s /\ 0 <= o2 <= s
  | PCouple o1 o2 => wanted s ws o1 o2
  | PActive o1 o2 i1 i2 => wanted s ws o1 i1 /\ wanted s ws o1 i2 /\ wanted s ws o2 i1 /\ wanted s ws o2 i2
  | PSourcePoint m => 0 <= m <= s
  | PDiagonal m => wanted s ws m m
  | PPoint n1 n2 => wanted s ws n1 n2
  end.
Definition circuit_ok {A} (s : Z) (ws : list (Z * Z)) (ds : list (dev A)) : Prop :=
  forall d sl, In d ds -> In sl (d_slots A d) -> place_wanted s ws (s_place A sl).
(* a simulator that has just allocated its matrix: any voltages and right-hand side, not in
   incremental mode *)
Definition fresh {A} (M : mat A) (m : tri) (damp : num A) (rhs v : Z -> num A) (ds : list (dev A)) : sim A :=
  mksim A m 0 0 0 damp false false false M rhs v ds [] [].
(* the options of a command *)
Definition cmd_opts {A} (c : cmd A) : option (opts A) :=
  match c with CSolve _ o _ => Some o | CHomotopy _ _ o _ => Some o | COutside _ o _ _ => Some o | CBad _ => None end.

Section Setup.
Variable A : arith.
Lemma setup : forall s ws junk mp ds m damp rhs v, 0 <= s -> (forall w, In w ws -> fst w <= s /\ snd w <= s) ->
  circuit_ok s ws ds -> m <> tsYES ->
  exists M D0, start_mat A s ws junk mp = Some M /\ wf D0 /\ size D0 = s /\
    W A D0 mp (length ds) (fresh M m damp rhs v ds) /\ Yb A (fresh M m damp rhs v ds).
Proof.
  intros s ws junk mp ds m damp rhs v Hs Hin Hd Hm.
  destruct (start_mat_facts A s ws junk mp Hs Hin) as (M & E & Es & Hmw & Em & _ & Hok).
  exists M, (aa M). split; [assumption|]. split; [apply Hmw|]. split; [assumption|]. split.
  - constructor; cbn; try constructor; try reflexivity.
    + assumption.
    + split; [apply shape_refl|assumption].
    + rewrite Forall_forall. intros d Hdin. unfold dev_ok. rewrite Forall_forall. intros sl Hsl.
      specialize (Hd d sl Hdin Hsl). destruct (s_place A sl); cbn [place_ok place_wanted] in *.
      * destruct Hd as (H1 & H2). split; apply Hok; assumption.
      * apply Hok. exact Hd.
      * rewrite Es. exact Hd.
      * apply Hok. exact Hd.
      * apply Hok. exact Hd.
      * rewrite Es. exact Hd.
      * apply Hok. exact Hd.
      * apply Hok. exact Hd.
  - intros X. contradiction.
Qed.
End Setup.

(* C08.  Whatever the devices do and whatever sequence of solves, homotopies and resets is run: in
   every observed iteration the matrix is gmin on the diagonal (the value in force when the arrays
   were last cleared) plus the stamps of all the values loaded last, times mfactor, and the
   right-hand side is the sum of their sources: exactly what a full reload of those values would
   have left.  Incremental or not, traced or not, damped or not. *)
Theorem C08_incremental_equals_full : forall (K : fld) s ws junk mp (ds : list (dev (exA K))) m damp rhs v w cmds,
  0 <= s -> (forall p, In p ws -> fst p <= s /\ snd p <= s) -> circuit_ok s ws ds -> m <> tsYES ->
  world_ok (exA K) (length ds) w -> Forall (cmd_ok (exA K) (length ds)) cmds ->
  (forall c o, In c cmds -> cmd_opts c = Some o -> forall z a, o_noise (exA K) o z a = true -> z = f0 K) ->
  exists M y, start_mat (exA K) s ws junk mp = Some M /\
    foldM (do_cmd (exA K) w) cmds (fresh M m damp rhs v ds) = Some y /\
    forall pre sn post, s_log (exA K) y = pre ++ sn :: post ->
      exists f, find (sn_full (exA K)) (sn :: post) = Some f /\
        forall r, 1 <= r <= s ->
          sn_rhs (exA K) sn r = lsum K (map (fun d : dev (exA K) => lsum K (map (fun sl : slot (exA K) =>
             fmul K (fmul K (d_m (exA K) d) (s_old (exA K) sl)) (rstamp K (s_place (exA K) sl) r)) (d_slots _ d))) (sn_devs _ sn)) /\
          forall c, 1 <= c <= s -> read_s (exA K) (aa (sn_mat (exA K) sn)) r c =
            Some (fadd K (fmul K (sn_gmin _ f) (delta K r c))
              (lsum K (map (fun d : dev (exA K) => lsum K (map (fun sl : slot (exA K) =>
                fmul K (fmul K (d_m (exA K) d) (s_old (exA K) sl)) (mstamp K (s_place (exA K) sl) r c)) (d_slots _ d))) (sn_devs _ sn)))).
Proof.
  intros K s ws junk mp ds m damp rhs v w cmds Hs Hin Hd Hm Hw Hc Hq.
  destruct (setup (exA K) s ws junk mp ds m damp rhs v Hs Hin Hd Hm) as (M & D0 & E & HD0 & Es & HW & HY).
  destruct (cmds_sys (exA K) D0 mp (length ds) HD0 w cmds _ Hw Hc HW HY eq_refl) as (y & Ey & Wy & _).
  exists M, y. split; [assumption|]. split; [assumption|].
  assert (HL : log_ok K D0 (s_log _ y)).
  { apply cmds_val with mp (length ds) w cmds (fresh M m damp rhs v ds); auto.
    - rewrite Forall_forall. intros c Hin'. destruct c as [o itl|cs o itl| |o es p]; cbn; auto;
        intros z a; apply (Hq _ o Hin' eq_refl).
    - intros X. contradiction.
    - exact I. }
  intros pre sn post Elog. pose proof (W_log _ _ _ _ _ Wy) as Hsn. rewrite Elog in HL, Hsn.
  assert (Hsn' : snap_ok (exA K) D0 mp sn).
  { rewrite Forall_forall in Hsn. apply Hsn. apply in_or_app. right. now left. }
  assert (HL' : log_ok K D0 (sn :: post)).
  { clear - HL. induction pre as [|x pre IH]; [exact HL|]. apply IH. exact (proj2 HL). }
  destruct HL' as ((f & Hf & Hh) & _). exists f. split; [exact Hf|]. intros r Hr. rewrite <- Es in Hr.
  destruct (Hh r Hr) as (P1 & P2). split; [exact P1|]. intros c Hc'. rewrite <- Es in Hc'.
  destruct Hsn' as (((Hwf & _) & (Sz & _) & _) & _). rewrite read_s_ext by (assumption || lia). f_equal. now apply P2.
Qed.
Print Assumptions C08_incremental_equals_full.

(* C09, for any arithmetic: in every observed iteration the factors are, bit for bit, those a
   complete decomposition of the matrix just loaded gives, and the voltages are their
   substitution of the current right-hand side; and no command fails *)
Theorem C09_factors_current : forall A s ws junk mp (ds : list (dev A)) m damp rhs v w cmds,
  0 <= s -> (forall p, In p ws -> fst p <= s /\ snd p <= s) -> circuit_ok s ws ds -> m <> tsYES ->
  world_ok A (length ds) w -> Forall (cmd_ok A (length ds)) cmds ->
  exists M y, start_mat A s ws junk mp = Some M /\ foldM (do_cmd A w) cmds (fresh M m damp rhs v ds) = Some y /\
    forall sn, In sn (s_log A y) ->
      (forall junk' ch, exists Mf,
        lu_decomp A false (mkmat (aa (sn_mat A sn)) (mkdata s (low (aa (sn_mat A sn))) junk') ch mp) = Some Mf /\
        forall r c, 1 <= r <= s -> 1 <= c <= s -> read_s A (sn_lu A sn) r c = read_s A (lu Mf) r c) /\
      exists c0, fbsub3 A (sn_lu A sn) (sn_rhs A sn) c0 = Some (sn_x A sn).
Proof.
  intros A s ws junk mp ds m damp rhs v w cmds Hs Hin Hd Hm Hw Hc.
  destruct (setup A s ws junk mp ds m damp rhs v Hs Hin Hd Hm) as (M & D0 & E & HD0 & Es & HW & HY).
  destruct (cmds_sys A D0 mp (length ds) HD0 w cmds _ Hw Hc HW HY eq_refl) as (y & Ey & Wy & _).
  exists M, y. split; [assumption|]. split; [assumption|]. intros sn Hsn.
  pose proof (W_log _ _ _ _ _ Wy) as HF. rewrite Forall_forall in HF. specialize (HF sn Hsn).
  destruct HF as (((Hwf & _) & Sh & _) & HLU & Shl & Hx). split; [|assumption]. intros junk' ch.
  set (Mx := mkmat _ _ _ _).
  assert (Sz : size (aa (sn_mat A sn)) = s) by (destruct Sh; congruence).
  destruct (lu_decomp_spec A false Mx) as (Mf & Ef & Eaf & Emf & Hmf & HLf & _).
  { split; [exact Hwf|]. split; [cbn; congruence|reflexivity]. }
  { discriminate. }
  exists Mf. split; [assumption|]. cbn [aa min_pivot Mx] in *.
  assert (Hwf' : wf (lu Mf)). { destruct Hmf as (Hwa & Hsh). now apply (shape_wf A (aa Mf)). }
  assert (Shf : shape (lu Mf) (sn_lu A sn)).
  { destruct Hmf as (_ & F1 & F2). destruct Shl as (P1 & P2). destruct Sh as (Q1 & Q2). split; congruence. }
  assert (Sz' : size (lu Mf) = s). { destruct Hmf as (_ & F1 & F2). congruence. }
  intros r c Hr Hc'. apply ent_read_eq; try assumption; try lia.
  apply LUrec_unique with (aa (sn_mat A sn)) mp; assumption.
Qed.
Print Assumptions C09_factors_current.

(* C09, in exact arithmetic: the voltages of every observed iteration solve the system made of
   gmin and of all the stamps (with min_pivot added where a pivot was exactly zero), and ground is 0 *)
Theorem C09_voltages_solve : forall (K : fld) s ws junk mp (ds : list (dev (exA K))) m damp rhs v w cmds,
  0 <= s -> (forall p, In p ws -> fst p <= s /\ snd p <= s) -> circuit_ok s ws ds -> m <> tsYES -> mp <> f0 K ->
  world_ok (exA K) (length ds) w -> Forall (cmd_ok (exA K) (length ds)) cmds ->
  (forall c o, In c cmds -> cmd_opts c = Some o -> forall z a, o_noise (exA K) o z a = true -> z = f0 K) ->
  exists M y, start_mat (exA K) s ws junk mp = Some M /\
    foldM (do_cmd (exA K) w) cmds (fresh M m damp rhs v ds) = Some y /\
    forall pre sn post, s_log (exA K) y = pre ++ sn :: post ->
      exists f z, find (sn_full (exA K)) (sn :: post) = Some f /\
        (forall k, 1 <= k <= s -> (z k = true <-> zero_pivot K (aa (sn_mat (exA K) sn)) (sn_lu _ sn) k)) /\
        sn_x _ sn 0 = f0 K /\
        forall r, 1 <= r <= s ->
          tot K s (fun c => fmul K
            (fadd K (fadd K (fmul K (sn_gmin _ f) (delta K r c)) (devs_m K (sn_devs _ sn) r c))
                    (if (r =? c) && z r then mp else f0 K)) (sn_x _ sn c))
          = devs_r K (sn_devs _ sn) r.
Proof.
  intros K s ws junk mp ds m damp rhs v w cmds Hs Hin Hd Hm Hmp Hw Hc Hq.
  destruct (setup (exA K) s ws junk mp ds m damp rhs v Hs Hin Hd Hm) as (M & D0 & E & HD0 & Es & HW & HY).
  destruct (cmds_sys (exA K) D0 mp (length ds) HD0 w cmds _ Hw Hc HW HY eq_refl) as (y & Ey & Wy & _).
  exists M, y. split; [assumption|]. split; [assumption|].
  destruct (C08_incremental_equals_full K s ws junk mp ds m damp rhs v w cmds Hs Hin Hd Hm Hw Hc Hq) as (M' & y' & E' & Ey' & H8).
  assert (M' = M) by congruence. subst M'. assert (y' = y) by congruence. subst y'.
  intros pre sn post Elog. destruct (H8 pre sn post Elog) as (f & Hf & Hh).
  pose proof (W_log _ _ _ _ _ Wy) as HF. rewrite Forall_forall in HF.
  destruct (HF sn) as (((Hwf & Hsh) & Sh & Hmpe) & HLU & Shl & c0 & Hx). { rewrite Elog. apply in_or_app. right. now left. }
  assert (Hwl : wf (sn_lu _ sn)) by now apply (shape_wf _ D0).
  assert (Sz : size (sn_lu _ sn) = s) by (destruct Shl; congruence).
  assert (Sza : size (aa (sn_mat (exA K) sn)) = s) by (destruct Sh; congruence).
  assert (Shla : shape (sn_lu _ sn) (aa (sn_mat (exA K) sn))) by (destruct Sh, Shl; split; congruence).
  destruct (pivots K (aa (sn_mat (exA K) sn)) mp (sn_lu _ sn) Hwl Shla Hmp HLU) as (z & Hz & HZ).
  pose proof (rec_diag_ok K _ _ _ Hwl Hmp HLU) as Hdg. rewrite Sz in *.
  exists f, z. split; [assumption|]. split; [assumption|].
  destruct (fbsub3_solves K (sn_lu _ sn) (sn_rhs _ sn) c0 Hwl Hdg) as (x & Ex & Hx0 & Hsol).
  assert (x = sn_x _ sn) by congruence. subst x. split; [assumption|].
  intros r Hr. destruct (Hh r Hr) as (P1 & P2).
  transitivity (sn_rhs _ sn r); [|exact P1]. rewrite <- (Hsol r ltac:(lia)). rewrite Sz. unfold tot.
  apply fsum_ext. intros c Hc'. f_equal. rewrite HZ by lia. unfold solved. f_equal.
  unfold dense. rewrite (P2 c) by lia. reflexivity.
Qed.
Print Assumptions C09_voltages_solve.

(* C58: a solve that does not start in incremental mode (in particular every step of the gmin
   homotopy, and the first solve of every analysis) uses the current gmin option throughout *)
Theorem C58_gmin_is_current : forall (K : fld) s ws junk mp (ds : list (dev (exA K))) m damp rhs v w cmds M x1 o itl,
  0 <= s -> (forall p, In p ws -> fst p <= s /\ snd p <= s) -> circuit_ok s ws ds -> m <> tsYES ->
  world_ok (exA K) (length ds) w -> Forall (cmd_ok (exA K) (length ds)) cmds -> 0 <= itl ->
  (forall c o, In c (CSolve _ o itl :: cmds) -> cmd_opts c = Some o -> forall z a, o_noise (exA K) o z a = true -> z = f0 K) ->
  start_mat (exA K) s ws junk mp = Some M ->
  foldM (do_cmd (exA K) w) cmds (fresh M m damp rhs v ds) = Some x1 ->
  s_inc _ x1 <> tsYES \/ o_incmode _ o = false ->
  exists y new, solve (exA K) o itl w x1 = Some y /\ s_log _ y = new ++ s_log _ x1 /\
    forall sn, In sn new -> forall r c, 1 <= r <= s -> 1 <= c <= s ->
      read_s (exA K) (aa (sn_mat (exA K) sn)) r c =
        Some (fadd K (fmul K (o_gmin _ o) (delta K r c)) (devs_m K (sn_devs _ sn) r c)).
Proof.
  intros K s ws junk mp ds m damp rhs v w cmds M x1 o itl Hs Hin Hd Hm Hw Hc Hi Hq E Ex Hst.
  destruct (setup (exA K) s ws junk mp ds m damp rhs v Hs Hin Hd Hm) as (M' & D0 & E' & HD0 & Es & HW & HY).
  assert (M' = M) by congruence. subst M'.
  destruct (cmds_sys (exA K) D0 mp (length ds) HD0 w cmds _ Hw Hc HW HY eq_refl) as (x1' & Ex' & W1 & Y1 & Q1).
  assert (x1' = x1) by congruence. subst x1'.
  assert (Hqo : quiet K o). { intros z a. apply (Hq (CSolve _ o itl) o (or_introl eq_refl) eq_refl). }
  assert (Hqs : Forall (fun c => match c with CSolve _ o _ => quiet K o | CHomotopy _ _ o _ => quiet K o | _ => True end) cmds).
  { rewrite Forall_forall. intros c Hin'. destruct c as [o' itl'|cs o' itl'| |o' es p]; cbn; auto;
      intros z a; apply (Hq _ o' (or_intror Hin') eq_refl). }
  (* the invariants at x1 *)
  assert (Hinv : Cb K D0 x1 /\ log_ok K D0 (s_log _ x1)).
  { assert (G : forall l x z, Forall (cmd_ok (exA K) (length ds)) l ->
       Forall (fun c => match c with CSolve _ o _ => quiet K o | CHomotopy _ _ o _ => quiet K o | _ => True end) l ->
       W (exA K) D0 mp (length ds) x -> Yb _ x -> s_loadq _ x = [] -> Cb K D0 x -> log_ok K D0 (s_log _ x) ->
       foldM (do_cmd (exA K) w) l x = Some z -> Cb K D0 z /\ log_ok K D0 (s_log _ z)).
    { induction l as [|c l IH]; intros x z Hl Hlq Wx Yx Qx Cx Lx Ef; cbn [foldM] in Ef; [injection Ef as <-; now split|].
      inversion Hl as [|? ? Hc1 Hl']; subst. inversion Hlq as [|? ? Hq1 Hlq']; subst.
      destruct (do_cmd_sys (exA K) D0 mp (length ds) HD0 w c x Hw Hc1 Wx Yx Qx) as (u & Eu & Wu & Yu & Qu).
      destruct (cmd_val K D0 mp (length ds) HD0 w c x u Hw Hc1 Hq1 Wx Yx Qx Cx Lx Eu) as (Cu & Lu).
      rewrite Eu in Ef. cbn [bind] in Ef. now apply IH with u. }
    apply (G cmds _ x1 Hc Hqs HW HY eq_refl); [intros X; contradiction|exact I|assumption]. }
  destruct Hinv as (C1 & L1).
  destruct (solve_sys (exA K) D0 mp (length ds) HD0 o itl w x1 Hw W1 Y1 Q1 Hi) as (y & Ey & Wy & _).
  destruct (solve_val K D0 mp (length ds) HD0 o itl w x1 y Hqo Hw W1 Y1 Q1 C1 L1 Ey) as (_ & Ly & new & (Nn & Gn) & Fn).
  exists y, new. split; [assumption|]. split; [assumption|]. intros sn Hsn r c Hr Hc'.
  assert (Hne : new <> []) by (destruct new; [contradiction|discriminate]).
  destruct (Fn Hst Hne) as (pre0 & sf & Enew & Hsf).
  apply in_split in Hsn. destruct Hsn as (pre & post & Esplit).
  assert (HLs : log_ok K D0 (sn :: post ++ s_log _ x1)).
  { rewrite Nn, Esplit, <- app_assoc in Ly. cbn [app] in Ly. clear - Ly.
    induction pre as [|x pre IH]; [exact Ly|]. apply IH. exact (proj2 Ly). }
  destruct HLs as ((f & Hf & Hh) & _).
  assert (Hfin : In f (sn :: post)).
  { assert (Hex : exists g, find (sn_full (exA K)) (sn :: post) = Some g).
    { assert (Hin2 : In sf (sn :: post)).
      { destruct post as [|q post'].
        - assert (X : pre ++ [sn] = pre0 ++ [sf]) by congruence. apply app_inj_tail in X. destruct X as (_ & ->). now left.
        - right. assert (X : exists l b, q :: post' = l ++ [b]).
          { destruct (@exists_last _ (q :: post')) as (l & b & ->); [discriminate|]. now exists l, b. }
          destruct X as (l & b & X). rewrite X in Esplit |- *.
          assert (X2 : (pre ++ sn :: l) ++ [b] = pre0 ++ [sf]). { rewrite <- Enew, Esplit, <- app_assoc. reflexivity. }
          apply app_inj_tail in X2. destruct X2 as (_ & ->). apply in_or_app. right. now left. }
      destruct (find (sn_full (exA K)) (sn :: post)) as [g|] eqn:Eg; [now exists g|].
      pose proof (find_none _ _ Eg sf Hin2). congruence. }
    destruct Hex as (g & Eg). unfold last_full in Hf.
    assert (Ef : find (sn_full (exA K)) (sn :: post ++ s_log _ x1) = Some g).
    { change (sn :: post ++ s_log _ x1) with ((sn :: post) ++ s_log _ x1). clear - Eg.
      induction (sn :: post) as [|a l IH]; [discriminate|]. cbn [find app] in *. destruct (sn_full (exA K) a); [assumption|now apply IH]. }
    assert (g = f) by congruence. subst g. apply find_some in Eg. apply Eg. }
  assert (Hg : sn_gmin _ f = o_gmin _ o).
  { rewrite Forall_forall in Gn. apply Gn. rewrite Esplit. apply in_or_app. right. exact Hfin. }
  rewrite <- Es in Hr, Hc'. destruct (Hh r Hr) as (_ & P2).
  pose proof (W_log _ _ _ _ _ Wy) as HF. rewrite Forall_forall in HF.
  destruct (HF sn) as (((Hwf & _) & (Sz & _) & _) & _).
  { rewrite Nn, Esplit. apply in_or_app. left. apply in_or_app. right. now left. }
  rewrite read_s_ext by (assumption || lia). rewrite (P2 c Hc'), Hg. reflexivity.
Qed.
Print Assumptions C58_gmin_is_current.

(* C59: a solve always ends, after at most itl+1 passes, with the load queue empty; it takes all
   itl+1 passes exactly when (at least) it did not converge.  The homotopy ends too. *)
Theorem C59_solve_ends : forall A s ws junk mp (ds : list (dev A)) m damp rhs v w cmds o itl cs,
  0 <= s -> (forall p, In p ws -> fst p <= s /\ snd p <= s) -> circuit_ok s ws ds -> m <> tsYES ->
  world_ok A (length ds) w -> Forall (cmd_ok A (length ds)) cmds -> 0 <= itl ->
  exists M x1 y z, start_mat A s ws junk mp = Some M /\ foldM (do_cmd A w) cmds (fresh M m damp rhs v ds) = Some x1 /\
    solve A o itl w x1 = Some y /\ s_loadq A y = [] /\ 1 <= s_iter A y <= itl + 1 /\
    s_total A y = s_total A x1 + s_iter A y /\ (s_conv A y = false -> s_iter A y = itl + 1) /\
    solve_with_homotopy A cs o itl w x1 = Some z /\ s_loadq A z = [].
Proof.
  intros A s ws junk mp ds m damp rhs v w cmds o itl cs Hs Hin Hd Hm Hw Hc Hi.
  destruct (setup A s ws junk mp ds m damp rhs v Hs Hin Hd Hm) as (M & D0 & E & HD0 & Es & HW & HY).
  destruct (cmds_sys A D0 mp (length ds) HD0 w cmds _ Hw Hc HW HY eq_refl) as (x1 & Ex & W1 & Y1 & Q1).
  destruct (solve_sys A D0 mp (length ds) HD0 o itl w x1 Hw W1 Y1 Q1 Hi) as (y & Ey & Wy & Yy & Qy & Iy & Py & Ty & Cy).
  destruct (solve_with_homotopy_sys A D0 mp (length ds) HD0 cs o itl w x1 Hw W1 Y1 Q1 Hi) as (z & Ez & _ & _ & Qz).
  exists M, x1, y, z. repeat (split; [assumption|]). assumption.
Qed.
Print Assumptions C59_solve_ends.

(* C08, continued: what is loaded is what the device computed last.  In every iteration that loads
   without damping, each device that is due (all of them in a full reload; the non-constant ones in
   an incremental pass without traceload; the queued ones with traceload) ends with the values of
   its last evaluation as its loaded values *)
Theorem C08_loads_latest_values : forall (K : fld) o st (x y : sim (exA K)) cc cc1 k d,
  (forall z a, o_noise (exA K) o z a = true -> z = f0 K) ->
  iteration (exA K) o st x cc = Some (y, cc1) -> s_log _ y <> s_log _ x ->
  s_iter _ y <= 1 \/ s_damp _ y = f1 K ->
  nth_error (s_devs _ x) k = Some d ->
  (is_inc (s_inc _ y) = false \/ (o_traceload _ o = false /\ d_const _ d = false) \/
   (o_traceload _ o = true /\ (In k (s_loadq _ x) \/ exists f, In (EEval _ k f true) (st_events _ st)))) ->
  exists sn rest d', s_log _ y = sn :: rest /\ nth_error (sn_devs _ sn) k = Some d' /\
    map (s_old _) (d_slots _ d') = evaluated K k (st_events _ st) (map (s_new _) (d_slots _ d)).
Proof.
  intros K o st x y cc cc1 k d Hq E Hlog Hp Hd Hl.
  destruct (iteration_loads K o st x cc y cc1 k (map (s_new _) (d_slots _ d)) Hq E Hlog Hp) as (H1 & sn & rest & H2 & H3).
  - unfold newv. now rewrite Hd.
  - destruct Hl as [Hl|[(Hl & Hc)|Hl]]; [now left|right; left|right; right; exact Hl].
    split; [assumption|]. unfold constv. rewrite Hd. cbn. now rewrite Hc.
  - exists sn, rest. unfold oldv in H1. rewrite H3. destruct (nth_error (s_devs _ y) k) as [d'|]; [|discriminate].
    exists d'. cbn in H1. repeat split; [assumption|]. now injection H1.
Qed.
Print Assumptions C08_loads_latest_values.

(* ---------------------------------------------------------------------- *)
(* Examples, over the rationals *)
Local Notation Aq := (exA QcFld).
Lemma om_inv : forall X Y (f : X -> Y) o v, option_map f o = Some v -> exists x, o = Some x /\ f x = v.
Proof. intros X Y f [x|] v H; [|discriminate]. exists x. split; [reflexivity|]. now injection H. Qed.
Lemma bind_inv : forall X Y (o : option X) (f : X -> option Y) v, bind o f = Some v -> exists x, o = Some x /\ f x = Some v.
Proof. intros X Y [x|] f v H; [|discriminate]. exists x. now split. Qed.
Definition qz (z : Z) : Qc := Q2Qc (inject_Z z).
Definition noise0 (z a : Qc) : bool := if Qc_eq_dec z 0%Qc then true else false.
Definition lt99 (z : Qc) : bool := if Qclt_le_dec z (Q2Qc (99#100)) then true else false.
Definition opt1 (tl lb : bool) (g : Qc) : opts Aq :=
  mkopts Aq true tl lb true 1 6 3 g (qz 1) (Q2Qc (1#2)) true noise0 lt99.
(* a conductance from 1 to ground with a source of 1 into node 1, a conductance from 1 to 2, and a
   nonlinear one from 2 to ground *)
Definition ckt1 : list (dev Aq) :=
  [ mkdev Aq (qz 1) true [mkslot Aq (PShunt 1 0) (qz 1) (qz 0); mkslot Aq (PSource 0 1) (qz 1) (qz 0)];
    mkdev Aq (qz 2) true [mkslot Aq (PShunt 1 2) (qz 1) (qz 0)];
    mkdev Aq (qz 1) false [mkslot Aq (PShunt 2 0) (qz 0) (qz 0); mkslot Aq (PSource 2 0) (qz 0) (qz 0)] ].
(* the nonlinear device computes a new value in each of the first four iterations *)
Definition wld1 : world Aq :=
  mkworld Aq (fun _ => [])
    (fun t => mkstep Aq (if t <? 4 then [EEval Aq 2 (fun j => match j with O => qz (t + 1) | _ => qz (t - 2) end) true] else []) (4 <=? t)).
Definition ws1 : list (Z * Z) := [(1,2);(2,1)].
Definition jq (_ : Z) : Qc := 0%Qc.
Definition run1 (cmds : list (cmd Aq)) :=
  let* M := start_mat Aq 2 ws1 jq (qz 1) in foldM (do_cmd Aq wld1) cmds (fresh M tsBAD (qz 1) jq jq ckt1).

Lemma ckt1_ok : circuit_ok 2 ws1 ckt1.
Proof.
  intros d sl Hd Hsl. cbn in Hd. destruct Hd as [<-|[<-|[<-|[]]]]; cbn in Hsl;
    repeat (destruct Hsl as [<-|Hsl]); try contradiction; cbn; unfold wanted, ws1; cbn; intuition lia.
Qed.
Lemma wld1_ok : world_ok Aq 3 wld1.
Proof.
  intros t. split; [constructor|]. unfold step_ok, wld1. cbn. destruct (t <? 4); constructor; cbn; [lia|constructor].
Qed.
(* six iterations, of which the last is bypassed; the first is a full load and the others are
   incremental with traced loads and partial decomposition, the second of them damped *)
Example ex_C08_run : exists y, run1 [CSolve Aq (opt1 true true (qz 0)) 10] = Some y /\
  map (fun sn => (sn_full Aq sn, this (sn_x Aq sn 1), this (sn_x Aq sn 2))) (s_log Aq y) =
    [(false, 2#7, -1#14); (false, 2#7, -1#14); (false, 5#11, 2#11); (false, 1, 1); (true, 7#5, 8#5)]%Q /\
  s_iter Aq y = 6 /\ s_conv Aq y = true.
Proof.
  destruct (om_inv _ _ (fun y => (map (fun sn => (sn_full Aq sn, this (sn_x Aq sn 1), this (sn_x Aq sn 2))) (s_log Aq y), s_iter Aq y, s_conv Aq y))
    (run1 [CSolve Aq (opt1 true true (qz 0)) 10])
    ([(false, 2#7, -1#14); (false, 2#7, -1#14); (false, 5#11, 2#11); (false, 1, 1); (true, 7#5, 8#5)]%Q, 6, true)) as (y & E & H).
  - vm_compute. reflexivity.
  - exists y. injection H as H1 H2 H3. auto.
Qed.
Lemma noise0_quiet : forall z a, noise0 z a = true -> z = f0 QcFld.
Proof. intros z a. unfold noise0. destruct (Qc_eq_dec z 0%Qc); [auto|discriminate]. Qed.
(* the hypotheses of C08 hold of it *)
Example ex_C08 : exists M y, start_mat Aq 2 ws1 jq (qz 1) = Some M /\
  foldM (do_cmd Aq wld1) [CSolve Aq (opt1 true true (qz 0)) 10; CBad Aq; CSolve Aq (opt1 true true (qz 1)) 10] (fresh M tsBAD (qz 1) jq jq ckt1) = Some y /\
  forall pre sn post, s_log Aq y = pre ++ sn :: post ->
    exists f, find (sn_full Aq) (sn :: post) = Some f /\ forall r, 1 <= r <= 2 ->
      sn_rhs Aq sn r = devs_r QcFld (sn_devs Aq sn) r /\
      forall c, 1 <= c <= 2 -> read_s Aq (aa (sn_mat Aq sn)) r c =
        Some (fadd QcFld (fmul QcFld (sn_gmin Aq f) (delta QcFld r c)) (devs_m QcFld (sn_devs Aq sn) r c)).
Proof.
  apply (C08_incremental_equals_full QcFld 2 ws1 jq (qz 1) ckt1 tsBAD (qz 1) jq jq wld1).
  - lia.
  - intros p [<-|[<-|[]]]; cbn; lia.
  - exact ckt1_ok.
  - discriminate.
  - exact wld1_ok.
  - repeat constructor; cbn; lia.
  - intros c o Hc Ho. assert (o_noise Aq o = noise0).
    { destruct Hc as [<-|[<-|[<-|[]]]]; cbn in Ho; try discriminate; now injection Ho as <-. }
    rewrite H. exact noise0_quiet.
Qed.
(* and of C09 *)
Example ex_C09 : exists M y, start_mat Aq 2 ws1 jq (qz 1) = Some M /\
  foldM (do_cmd Aq wld1) [CSolve Aq (opt1 true true (qz 0)) 10] (fresh M tsBAD (qz 1) jq jq ckt1) = Some y /\
  forall pre sn post, s_log Aq y = pre ++ sn :: post -> exists f z, find (sn_full Aq) (sn :: post) = Some f /\
    (forall k, 1 <= k <= 2 -> (z k = true <-> zero_pivot QcFld (aa (sn_mat Aq sn)) (sn_lu Aq sn) k)) /\
    sn_x Aq sn 0 = f0 QcFld /\
    forall r, 1 <= r <= 2 -> tot QcFld 2 (fun c => fmul QcFld
            (fadd QcFld (fadd QcFld (fmul QcFld (sn_gmin _ f) (delta QcFld r c)) (devs_m QcFld (sn_devs _ sn) r c))
                    (if (r =? c) && z r then qz 1 else f0 QcFld)) (sn_x _ sn c))
          = devs_r QcFld (sn_devs _ sn) r.
Proof.
  destruct (C09_voltages_solve QcFld 2 ws1 jq (qz 1) ckt1 tsBAD (qz 1) jq jq wld1 [CSolve Aq (opt1 true true (qz 0)) 10])
    as (M & y & E1 & E2 & H).
  - lia.
  - intros p [<-|[<-|[]]]; cbn; lia.
  - exact ckt1_ok.
  - discriminate.
  - intros X. apply (f_equal this) in X. discriminate.
  - exact wld1_ok.
  - repeat constructor; cbn; lia.
  - intros c o Hc Ho. destruct Hc as [<-|[]]. cbn in Ho. injection Ho as <-. exact noise0_quiet.
  - exists M, y. split; [exact E1|]. split; [exact E2|]. exact H.
Qed.
(* the second iteration of that run is damped by 1/2; the third, with damping 1 again, meets the
   hypotheses of C08_loads_latest_values *)
Example ex_C08_latest : exists M a1 x2 c2 y2 c3, start_mat Aq 2 ws1 jq (qz 1) = Some M /\
  let o := opt1 true true (qz 0) in
  iteration Aq o (w_step Aq wld1 0) (with_damp Aq (qz 1) (fresh M tsBAD (qz 1) jq jq ckt1)) 0 = Some a1 /\
  iteration Aq o (w_step Aq wld1 1) (fst a1) (snd a1) = Some (x2, c2) /\
  iteration Aq o (w_step Aq wld1 2) x2 c2 = Some (y2, c3) /\
  length (s_log Aq y2) = 3%nat /\ length (s_log Aq x2) = 2%nat /\
  this (s_damp Aq y2) = 1%Q /\ this (s_damp Aq x2) = (1#2)%Q /\
  option_map (fun d => map this (map (s_old Aq) (d_slots Aq d))) (nth_error (s_devs Aq y2) 2) = Some [3; 0]%Q /\
  exists f, In (EEval Aq 2 f true) (st_events Aq (w_step Aq wld1 2)).
Proof.
  set (o := opt1 true true (qz 0)).
  assert (X : (let* M := start_mat Aq 2 ws1 jq (qz 1) in
    let* a1 := iteration Aq o (w_step Aq wld1 0) (with_damp Aq (qz 1) (fresh M tsBAD (qz 1) jq jq ckt1)) 0 in
    let* a2 := iteration Aq o (w_step Aq wld1 1) (fst a1) (snd a1) in
    let* a3 := iteration Aq o (w_step Aq wld1 2) (fst a2) (snd a2) in
    Some (length (s_log Aq (fst a3)), length (s_log Aq (fst a2)), this (s_damp Aq (fst a3)), this (s_damp Aq (fst a2)),
      option_map (fun d => map this (map (s_old Aq) (d_slots Aq d))) (nth_error (s_devs Aq (fst a3)) 2)))
    = Some (3%nat, 2%nat, 1%Q, (1#2)%Q, Some [3; 0]%Q)) by (vm_compute; reflexivity).
  apply bind_inv in X. destruct X as (M & E1 & X). apply bind_inv in X. destruct X as (a1 & E2 & X).
  apply bind_inv in X. destruct X as ((x2, c2) & E3 & X). apply bind_inv in X. destruct X as ((y2, c3) & E4 & X).
  cbn [fst snd] in *. injection X as X1 X2 X3 X4 X5.
  exists M, a1, x2, c2, y2, c3. cbv zeta. repeat (split; [assumption|]). eexists. left. reflexivity.
Qed.

(* C58 fails for the last solve of the homotopy: gmin is put back but the incremental mode is
   left on, so the matrix keeps the homotopy's gmin, and the solve can converge with it.  Here
   1 A into 1 Ohm with gmin = 1/1000 gives 1/2 V instead of 1000/1001 V. *)
Definition ckt2 : list (dev Aq) :=
  [ mkdev Aq (qz 1) false [mkslot Aq (PShunt 1 0) (qz 1) (qz 0); mkslot Aq (PSource 0 1) (qz 1) (qz 0)] ].
Definition wld2 : world Aq := mkworld Aq (fun _ => []) (fun t => mkstep Aq [] (4 <=? t)).
Definition cs2 := mkconsts Aq (qz 1) (Q2Qc (7#2)) (qz 4) (fun a b => if Qclt_le_dec b a then true else false).
Theorem C58_last_homotopy_solve_refuted :
  ~ (forall (K : fld) s ws junk mp (ds : list (dev (exA K))) m damp rhs v w cs o itl M y,
      0 <= s -> (forall p, In p ws -> fst p <= s /\ snd p <= s) -> circuit_ok s ws ds -> m <> tsYES ->
      world_ok (exA K) (length ds) w -> 0 <= itl ->
      (forall z a, o_noise (exA K) o z a = true -> z = f0 K) ->
      start_mat (exA K) s ws junk mp = Some M ->
      solve_with_homotopy (exA K) cs o itl w (fresh M m damp rhs v ds) = Some y -> s_conv _ y = true ->
      forall sn rest, s_log _ y = sn :: rest -> forall r c, 1 <= r <= s -> 1 <= c <= s ->
        read_s (exA K) (aa (sn_mat _ sn)) r c =
          Some (fadd K (fmul K (o_gmin _ o) (delta K r c)) (devs_m K (sn_devs _ sn) r c))).
Proof.
  intros H.
  assert (X : exists M y sn rest, start_mat Aq 1 [] jq (qz 1) = Some M /\
    solve_with_homotopy Aq cs2 (opt1 true true (Q2Qc (1#1000))) 1 wld2 (fresh M tsBAD (qz 1) jq jq ckt2) = Some y /\
    s_conv _ y = true /\ s_log _ y = sn :: rest /\
    option_map this (read_s Aq (aa (sn_mat _ sn)) 1 1) = Some 2%Q /\
    this (fadd QcFld (fmul QcFld (Q2Qc (1#1000)) (delta QcFld 1 1)) (devs_m QcFld (sn_devs _ sn) 1 1)) = (1001#1000)%Q /\
    this (sn_x _ sn 1) = (1#2)%Q).
  { assert (X : (let* M := start_mat Aq 1 [] jq (qz 1) in
      let* y := solve_with_homotopy Aq cs2 (opt1 true true (Q2Qc (1#1000))) 1 wld2 (fresh M tsBAD (qz 1) jq jq ckt2) in
      match s_log _ y with [] => None | sn :: _ =>
        Some (s_conv _ y, option_map this (read_s Aq (aa (sn_mat _ sn)) 1 1),
          this (fadd QcFld (fmul QcFld (Q2Qc (1#1000)) (delta QcFld 1 1)) (devs_m QcFld (sn_devs _ sn) 1 1)), this (sn_x _ sn 1)) end)
      = Some (true, Some 2%Q, (1001#1000)%Q, (1#2)%Q)) by (vm_compute; reflexivity).
    apply bind_inv in X. destruct X as (M & E1 & X). apply bind_inv in X. destruct X as (y & E2 & X).
    destruct (s_log Aq y) as [|sn rest] eqn:El; [discriminate|]. injection X as X1 X2 X3 X4.
    exists M, y, sn, rest. repeat split; assumption. }
  destruct X as (M & y & sn & rest & E1 & E2 & E3 & E4 & E5 & E6 & _).
  specialize (H QcFld 1 [] jq (qz 1) ckt2 tsBAD (qz 1) jq jq wld2 cs2 (opt1 true true (Q2Qc (1#1000))) 1 M y).
  assert (Y : read_s Aq (aa (sn_mat _ sn)) 1 1 = Some (fadd QcFld (fmul QcFld (Q2Qc (1#1000)) (delta QcFld 1 1)) (devs_m QcFld (sn_devs _ sn) 1 1))).
  { apply H with rest; try lia; try assumption; try discriminate.
    - intros p [].
    - intros d sl [<-|[]] Hsl. repeat (destruct Hsl as [<-|Hsl]); try contradiction; cbn; unfold wanted; cbn; lia || (intuition lia).
    - intros t. split; [constructor|constructor].
    - exact noise0_quiet. }
  rewrite Y in E5. cbn [option_map] in E5. rewrite E6 in E5. discriminate.
Qed.
Print Assumptions C58_last_homotopy_solve_refuted.

(* C08 needs quiet options: with roundofftol = 1/10, a change from 100 to 105 in the first
   iteration of an incremental solve is suppressed, yet 105 is recorded as loaded: the matrix
   stays 5 off for good *)
Definition noise10 (z a : Qc) : bool :=
  let az := if Qclt_le_dec z 0%Qc then (- z)%Qc else z in
  let aa := if Qclt_le_dec a 0%Qc then (- a)%Qc else a in
  if Qclt_le_dec az (aa / qz 10)%Qc then true else false.
Definition opt3 : opts Aq := mkopts Aq true true true true 1 6 3 (qz 0) (qz 1) (Q2Qc (1#2)) true noise10 lt99.
Definition wld3 : world Aq := mkworld Aq (fun _ => [])
  (fun t => mkstep Aq [EEval Aq 0 (fun j => match j with O => if t <? 2 then qz 100 else qz 105 | _ => qz 1 end) true] (negb (Z.eqb t 2))).
Theorem C08_noise_suppression_refuted : exists M y sn rest,
  start_mat Aq 1 [] jq (qz 1) = Some M /\
  foldM (do_cmd Aq wld3) [CSolve Aq opt3 10; CSolve Aq opt3 10] (fresh M tsBAD (qz 1) jq jq ckt2) = Some y /\
  s_log _ y = sn :: rest /\ s_conv _ y = true /\
  option_map this (read_s Aq (aa (sn_mat _ sn)) 1 1) = Some 100%Q /\
  this (devs_m QcFld (sn_devs _ sn) 1 1) = 105%Q.
Proof.
  assert (X : (let* M := start_mat Aq 1 [] jq (qz 1) in
    let* y := foldM (do_cmd Aq wld3) [CSolve Aq opt3 10; CSolve Aq opt3 10] (fresh M tsBAD (qz 1) jq jq ckt2) in
    match s_log _ y with [] => None | sn :: _ =>
      Some (s_conv _ y, option_map this (read_s Aq (aa (sn_mat _ sn)) 1 1), this (devs_m QcFld (sn_devs _ sn) 1 1)) end)
    = Some (true, Some 100%Q, 105%Q)) by (vm_compute; reflexivity).
  apply bind_inv in X. destruct X as (M & E1 & X). apply bind_inv in X. destruct X as (y & E2 & X).
  destruct (s_log Aq y) as [|sn rest] eqn:El; [discriminate|]. injection X as X1 X2 X3.
  exists M, y, sn, rest. repeat split; assumption.
Qed.
Print Assumptions C08_noise_suppression_refuted.
(* C58 and C59 on the first circuit: a second solve after set_inc_mode_bad, with another gmin *)
Example ex_C58 : exists M x1 y, start_mat Aq 2 ws1 jq (qz 1) = Some M /\
  foldM (do_cmd Aq wld1) [CSolve Aq (opt1 true true (qz 0)) 10; CBad Aq] (fresh M tsBAD (qz 1) jq jq ckt1) = Some x1 /\
  s_inc _ x1 = tsBAD /\ solve Aq (opt1 true true (qz 3)) 10 wld1 x1 = Some y /\ s_iter _ y = 2 /\
  (let* sn := hd_error (s_log _ y) in let* v := read_s Aq (aa (sn_mat _ sn)) 2 2 in Some (this v)) = Some 9%Q.
Proof.
  assert (X : (let* M := start_mat Aq 2 ws1 jq (qz 1) in
    let* x1 := foldM (do_cmd Aq wld1) [CSolve Aq (opt1 true true (qz 0)) 10; CBad Aq] (fresh M tsBAD (qz 1) jq jq ckt1) in
    let* y := solve Aq (opt1 true true (qz 3)) 10 wld1 x1 in
    Some (s_inc _ x1, s_iter _ y, let* sn := hd_error (s_log _ y) in let* v := read_s Aq (aa (sn_mat _ sn)) 2 2 in Some (this v)))
    = Some (tsBAD, 2, Some 9%Q)) by (vm_compute; reflexivity).
  apply bind_inv in X. destruct X as (M & E1 & X). apply bind_inv in X. destruct X as (x1 & E2 & X).
  apply bind_inv in X. destruct X as (y & E3 & X). injection X as X1 X2 X3.
  exists M, x1, y. repeat split; assumption.
Qed.
