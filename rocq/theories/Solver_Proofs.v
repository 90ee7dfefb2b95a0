(* Invariants of the iteration loop, for any arithmetic: nothing fails, and the factors are always
   those of the matrix just loaded. *)
Require Import ZArith List Bool Lia.
Require Import Verif.Loops Verif.FieldSums Verif.Matrix_Model Verif.Matrix_Layout Verif.Matrix_LU Verif.Matrix_Load
  Verif.Matrix_Spec Verif.Matrix_Main Verif.Solver_Model.
Import ListNotations.
Local Open Scope Z_scope.

Section S.
Variable A : arith.
Notation T := (num A).

(* substitution never leaves its arrays, whatever the numbers *)
Lemma vget_in : forall n (v : Z -> T) i, 0 <= i <= n -> vget A n v i = Some (v i).
Proof. intros n v i H. unfold vget. now replace ((0 <=? i) && (i <=? n)) with true by lia. Qed.
Lemma vset_in : forall n (v : Z -> T) i x, 0 <= i <= n -> vset A n v i x = Some (upd v i x).
Proof. intros n v i x H. unfold vset. now replace ((0 <=? i) && (i <=? n)) with true by lia. Qed.

Lemma first_nz_range : forall n i (b : Z -> T), i <= first_nz A n i b <= i + Z.of_nat n.
Proof.
  induction n as [|n IH]; intros i b; cbn [first_nz]; [lia|]. destruct (nzero A (b i)); [|lia].
  specialize (IH (i + 1) b). lia.
Qed.

Lemma fwd_row_total : forall (D : data A) from ii v, wf D -> 1 <= ii <= size D -> low D ii <= from ->
  exists w, fwd_row A D from ii v = Some w.
Proof.
  intros D from ii v Hw Hi Hf. unfold fwd_row.
  pose proof Hw as Hw'. destruct Hw' as (_ & _ & Hlow). specialize (Hlow ii Hi).
  destruct (Z_le_gt_dec from ii) as [L|G].
  - destruct (for_up_ind (Z -> T) (fun _ _ => True) (fun jj v' =>
      let* x := vget A (size D) v' ii in
      let* a := load_ A D (addr_l A D ii jj) in
      let* y := vget A (size D) v' jj in
      vset A (size D) v' ii (nsub A x (nmul A a y))) from ii v L I) as (w & E & _).
    + intros jj w Hj _. rewrite vget_in by lia. cbn [bind].
      rewrite rd_l by (assumption || (split; [lia|split; [lia|]]; rewrite Z.max_l, Z.min_r by lia; lia) || lia).
      cbn [bind]. rewrite vget_in by lia. cbn [bind]. rewrite vset_in by lia. eexists. now split.
    + now exists w.
  - exists v. now apply for_up_empty; lia.
Qed.

Lemma div_row_total : forall (D : data A) ii v, wf D -> 1 <= ii <= size D -> exists w, div_row A D ii v = Some w.
Proof.
  intros D ii v Hw Hi. unfold div_row. rewrite vget_in by lia. cbn [bind]. rewrite rd_d by assumption. cbn [bind].
  rewrite vset_in by lia. now eexists.
Qed.

Lemma back_sub_total : forall (D : data A) v, wf D -> exists w, back_sub A D v = Some w.
Proof.
  intros D v Hw. unfold back_sub. pose proof Hw as Hw'. destruct Hw' as (Hs & _ & Hlow).
  destruct (Z_le_gt_dec 1 (size D)) as [L|G].
  2: { exists v. apply for_down_empty. lia. }
  destruct (for_down_ind (Z -> T) (fun _ _ => True) (fun jj v' =>
    for_up (low D jj) jj (fun ii v'' =>
      let* x := vget A (size D) v'' ii in
      let* a := load_ A D (addr_u A D ii jj) in
      let* y := vget A (size D) v'' jj in
      vset A (size D) v'' ii (nsub A x (nmul A a y))) v') (size D) 1 v L I) as (w & E & _).
  - intros jj w Hj _. assert (Hj' : 1 <= jj <= size D) by lia. specialize (Hlow jj Hj').
    destruct (for_up_ind (Z -> T) (fun _ _ => True) (fun ii v'' =>
      let* x := vget A (size D) v'' ii in
      let* a := load_ A D (addr_u A D ii jj) in
      let* y := vget A (size D) v'' jj in
      vset A (size D) v'' ii (nsub A x (nmul A a y))) (low D jj) jj w ltac:(lia) I) as (w' & E & _).
    + intros ii u Hii _. rewrite vget_in by lia. cbn [bind].
      rewrite rd_u by (assumption || (split; [lia|split; [lia|]]; rewrite Z.max_r, Z.min_l by lia; lia) || lia).
      cbn [bind]. rewrite vget_in by lia. cbn [bind]. rewrite vset_in by lia. eexists. now split.
    + exists w'. now split.
  - now exists w.
Qed.

Lemma fbsub3_total : forall (D : data A) b c, wf D -> exists x, fbsub3 A D b c = Some x.
Proof.
  intros D b c Hw. unfold fbsub3. pose proof (first_nz_range (Z.to_nat (size D)) 1 b) as Hnz.
  set (nz := first_nz A (Z.to_nat (size D)) 1 b) in *. clearbody nz.
  pose proof Hw as Hw'. destruct Hw' as (Hs & _ & _).
  destruct (for_up_ind (Z -> T) (fun _ _ => True) (fun ii c' => vset A (size D) c' ii (n0 A)) 1 nz c ltac:(lia) I)
    as (c0 & E0 & _).
  { intros ii w Hi _. rewrite vset_in by lia. eexists. now split. }
  rewrite E0. cbn [bind].
  destruct (for_up_ind (Z -> T) (fun _ _ => True) (fun ii c' =>
      let* bi := vget A (size D) b ii in
      let* c2 := vset A (size D) c' ii bi in
      let* c3 := fwd_row A D (Z.max (low D ii) nz) ii c2 in
      div_row A D ii c3) nz (size D + 1) c0 ltac:(lia) I) as (c1 & E1 & _).
  { intros ii w Hi _. rewrite vget_in by lia. cbn [bind]. rewrite vset_in by lia. cbn [bind].
    destruct (fwd_row_total D (Z.max (low D ii) nz) ii (upd w ii (b ii)) Hw ltac:(lia) ltac:(lia)) as (w1 & ->). cbn [bind].
    destruct (div_row_total D ii w1 Hw ltac:(lia)) as (w2 & ->). eexists. now split. }
  rewrite E1. cbn [bind]. destruct (back_sub_total D c1 Hw) as (w & ->). cbn [bind]. rewrite vset_in by lia. now eexists.
Qed.

(* ---- layer 1: the matrix always has its shape, and is in step with its factors ---- *)
Variable D0 : data A.
Variable mp : T.
Variable n : nat.
Hypothesis HD0 : wf D0.

Definition place_ok (p : place) : Prop :=
  match p with
  | PInode o1 o2 i1 => load_ok A D0 (LCouple o1 i1 (n0 A)) /\ load_ok A D0 (LCouple o2 i1 (n0 A))
  | PShunt o1 o2 => load_ok A D0 (LSym o1 o2 (n0 A))
  | PSource o1 o2 => 0 <= o1 <= size D0 /\ 0 <= o2 <= size D0
  | PCouple o1 o2 => load_ok A D0 (LCouple o1 o2 (n0 A))
  | PActive o1 o2 i1 i2 => load_ok A D0 (LAsym o1 o2 i1 i2 (n0 A))
  | PSourcePoint m => 0 <= m <= size D0
  | PDiagonal m => load_ok A D0 (LDiag m (n0 A))
  | PPoint n1 n2 => load_ok A D0 (LPoint n1 n2 (n0 A))
  end.
Definition dev_ok (d : dev A) : Prop := Forall (fun sl => place_ok (s_place A sl)) (d_slots A d).
Definition Sys (M : mat A) : Prop := mwf A M /\ shape D0 (aa M) /\ min_pivot M = mp.
Definition snap_ok (sn : snap A) : Prop :=
  Sys (sn_mat A sn) /\ LUrec A (aa (sn_mat A sn)) mp (sn_lu A sn) /\ shape D0 (sn_lu A sn) /\
  exists c, fbsub3 A (sn_lu A sn) (sn_rhs A sn) c = Some (sn_x A sn).

Lemma do_load_sys : forall x M, Sys M -> load_ok A D0 x ->
  exists M', do_load A x M = Some M' /\ Sys M' /\ (sync A M -> sync A M') /\ loaded A x M M'.
Proof.
  intros x M (Hm & Sh & Ep) Hx.
  destruct (do_load_loaded A x M (proj1 Hm)) as (M' & E & HL).
  { now apply load_ok_shape with D0. }
  exists M'. split; [assumption|]. split; [|split; [intros Hs; now apply loaded_sync with x M|assumption]].
  split; [now apply loaded_mwf with x M|]. destruct HL as (Ea & _ & Em & _). split; [|congruence].
  rewrite Ea. apply shape_trans with (aa M); [assumption|apply fold_aput_shape].
Qed.

Lemma load_place_sys : forall p d M r, Sys M -> place_ok p ->
  exists M' r', load_place A p d M r = Some (M', r') /\ Sys M' /\ (sync A M -> sync A M').
Proof.
  intros p d M r HS Hp. unfold load_place. destruct (nzero A d).
  { exists M, r. now repeat split; try apply HS. }
  assert (Hz : size (aa M) = size D0) by (destruct HS as (_ & (Hz & _) & _); exact Hz).
  destruct HD0 as (Hs0 & _).
  assert (HA : forall k v (r : Z -> T), 0 <= k <= size D0 -> exists r', add_i A M k v r = Some r').
  { intros k v r0 Hk. unfold add_i. destruct (k =? 0); [now eexists|]. rewrite vget_in by lia. cbn [bind].
    rewrite vset_in by lia. now eexists. }
  assert (HB : forall k v (r : Z -> T), 0 <= k <= size D0 -> exists r', sub_i A M k v r = Some r').
  { intros k v r0 Hk. unfold sub_i. destruct (k =? 0); [now eexists|]. rewrite vget_in by lia. cbn [bind].
    rewrite vset_in by lia. now eexists. }
  destruct p as [o1 o2 i1|o1 o2|o1 o2|o1 o2|o1 o2 i1 i2|m|m|n1 n2]; cbn [place_ok] in Hp.
  - destruct Hp as (H1 & H2).
    destruct (do_load_sys (LCouple o1 i1 (nsub A (n0 A) d)) M HS H1) as (M1 & E1 & S1 & Y1 & _).
    destruct (do_load_sys (LCouple o2 i1 d) M1 S1 H2) as (M2 & E2 & S2 & Y2 & _).
    rewrite E1. cbn [bind]. rewrite E2. cbn [bind]. exists M2, r. split; [reflexivity|]. split; [assumption|]. tauto.
  - destruct (do_load_sys (LSym o1 o2 d) M HS Hp) as (M1 & E1 & S1 & Y1 & _). rewrite E1. cbn [bind]. now exists M1, r.
  - destruct Hp as (H1 & H2). destruct (HA o2 d r H2) as (r1 & ->). cbn [bind].
    destruct (HB o1 d r1 H1) as (r2 & ->). cbn [bind]. now exists M, r2.
  - destruct (do_load_sys (LCouple o1 o2 d) M HS Hp) as (M1 & E1 & S1 & Y1 & _). rewrite E1. cbn [bind]. now exists M1, r.
  - destruct (do_load_sys (LAsym o1 o2 i1 i2 d) M HS Hp) as (M1 & E1 & S1 & Y1 & _). rewrite E1. cbn [bind]. now exists M1, r.
  - destruct (HA m d r Hp) as (r1 & ->). cbn [bind]. now exists M, r1.
  - destruct (do_load_sys (LDiag m d) M HS Hp) as (M1 & E1 & S1 & Y1 & _). rewrite E1. cbn [bind]. now exists M1, r.
  - destruct (do_load_sys (LPoint n1 n2 d) M HS Hp) as (M1 & E1 & S1 & Y1 & _). rewrite E1. cbn [bind]. now exists M1, r.
Qed.

Lemma load_slots_sys : forall o x mf l mask M r, Sys M -> Forall (fun sl => place_ok (s_place A sl)) l ->
  exists l' M' r', load_slots A o x mf mask l M r = Some (l', M', r') /\ Sys M' /\ (sync A M -> sync A M') /\
    Forall (fun sl => place_ok (s_place A sl)) l'.
Proof.
  intros o x mf. induction l as [|sl l IH]; intros mask M r HS Hl; cbn [load_slots].
  - exists [], M, r. now repeat split; try apply HS.
  - inversion Hl as [|? ? Hp Hl']; subst.
    assert (H1 : exists sl' M1 r1, (if mask 0%nat then load_slot A o x mf sl M r else Some (sl, M, r)) = Some (sl', M1, r1) /\
              Sys M1 /\ (sync A M -> sync A M1) /\ place_ok (s_place A sl')).
    { destruct (mask 0%nat); [|now exists sl, M, r].
      unfold load_slot. destruct (dampdiff A o x mf (s_new A sl) (s_old A sl)) as (d & nw).
      destruct (load_place_sys (s_place A sl) d M r HS Hp) as (M1 & r1 & E & S1 & Y1). rewrite E. cbn [bind fst snd].
      now do 3 eexists. }
    destruct H1 as (sl' & M1 & r1 & E1 & S1 & Y1 & P1). rewrite E1. cbn [bind].
    destruct (IH (fun k => mask (S k)) M1 r1 S1 Hl') as (l' & M2 & r2 & E2 & S2 & Y2 & P2). rewrite E2. cbn [bind].
    exists (sl' :: l'), M2, r2. split; [reflexivity|]. split; [assumption|]. split; [tauto|]. now constructor.
Qed.

Lemma set_nth_length : forall X k (v : X) l, length (set_nth k v l) = length l.
Proof. intros X. induction k as [|k IH]; destruct l as [|h l]; cbn; auto. Qed.
Lemma set_nth_Forall : forall X (P : X -> Prop) k v l, Forall P l -> P v -> Forall P (set_nth k v l).
Proof.
  intros X P. induction k as [|k IH]; destruct l as [|h l]; cbn; intros H Hv; auto; inversion H; subst; constructor; auto.
Qed.
Lemma nth_error_lt : forall X (l : list X) k, (k < length l)%nat -> exists v, nth_error l k = Some v.
Proof.
  intros X l k H. destruct (nth_error l k) as [v|] eqn:E; [now exists v|]. apply nth_error_None in E. lia.
Qed.

Record W (x : sim A) : Prop := mkW {
  W_sys : Sys (s_mat A x);
  W_devs : Forall dev_ok (s_devs A x);
  W_len : length (s_devs A x) = n;
  W_log : Forall snap_ok (s_log A x);
  W_q : Forall (fun k => (k < n)%nat) (s_loadq A x)
}.
(* the factors are current, up to the marked rows *)
Definition Y (x : sim A) : Prop := sync A (s_mat A x).
(* unchanged counters *)
Definition cnt (x y : sim A) : Prop :=
  s_iter A y = s_iter A x /\ s_print A y = s_print A x /\ s_total A y = s_total A x.

Lemma load_dev_sys : forall o mask k x, W x -> (k < n)%nat ->
  exists y, load_dev A o mask k x = Some y /\ W y /\ (Y x -> Y y) /\
    (exists M r ds, y = with_sys A M r (with_devs A ds x)).
Proof.
  intros o mask k x [H1 H2 H3 H4 H5] Hk. unfold load_dev.
  destruct (nth_error_lt _ (s_devs A x) k ltac:(lia)) as (d & Ed). rewrite Ed. cbn [bind].
  assert (Hd : dev_ok d). { rewrite Forall_forall in H2. apply H2. now apply nth_error_In with k. }
  destruct (load_slots_sys o x (d_m A d) (d_slots A d) mask (s_mat A x) (s_rhs A x) H1 Hd) as (l' & M & r & E & S1 & Y1 & P1).
  rewrite E. cbn [bind]. eexists. split; [reflexivity|]. split; [|split; [exact Y1|now do 3 eexists]].
  constructor; cbn; try assumption.
  - now apply set_nth_Forall.
  - now rewrite set_nth_length.
Qed.

Definition ev_ok (e : event A) : Prop := match e with EEval _ k _ _ => (k < n)%nat | _ => True end.
Definition aev_ok (e : aevent A) : Prop := match e with AEv _ e => ev_ok e | AUnload _ k _ => (k < n)%nat end.

Lemma put_new_ok : forall l f, Forall (fun sl => place_ok (s_place A sl)) l -> Forall (fun sl => place_ok (s_place A sl)) (put_new A f l).
Proof. induction l as [|sl l IH]; intros f H; cbn; constructor; inversion H; subst; auto. Qed.
Lemma zero_new_ok : forall l m, Forall (fun sl => place_ok (s_place A sl)) l -> Forall (fun sl => place_ok (s_place A sl)) (zero_new A m l).
Proof. induction l as [|sl l IH]; intros m H; cbn; constructor; inversion H; subst; auto. now destruct (m 0%nat). Qed.

Lemma do_event_sys : forall e x, W x -> ev_ok e ->
  exists y, do_event A e x = Some y /\ W y /\ s_mat A y = s_mat A x /\ cnt x y /\
    (s_inc A y = s_inc A x \/ s_inc A y = mark_bad (s_inc A x)) /\ s_log A y = s_log A x /\ s_rhs A y = s_rhs A x.
Proof.
  intros e x [H1 H2 H3 H4 H5] He. destruct e as [k f q| | | |v]; cbn [do_event].
  - destruct (nth_error_lt _ (s_devs A x) k ltac:(cbn in He; lia)) as (d & Ed). rewrite Ed. cbn [bind].
    assert (Hd : dev_ok d). { rewrite Forall_forall in H2. apply H2. now apply nth_error_In with k. }
    assert (HF : Forall dev_ok (set_nth k (mkdev A (d_m A d) (d_const A d) (put_new A f (d_slots A d))) (s_devs A x))).
    { apply set_nth_Forall; [assumption|]. now apply put_new_ok. }
    assert (HL : length (set_nth k (mkdev A (d_m A d) (d_const A d) (put_new A f (d_slots A d))) (s_devs A x)) = n).
    { now rewrite set_nth_length. }
    eexists. split; [reflexivity|]. destruct q; cbn.
    + split; [constructor; cbn; try assumption|repeat split; auto].
      apply Forall_app. split; [assumption|]. constructor; [exact He|constructor].
    + split; [constructor; cbn; assumption|repeat split; auto].
  - eexists. split; [reflexivity|]. split; [now constructor|]. repeat split; cbn; auto.
  - eexists. split; [reflexivity|]. split; [now constructor|]. repeat split; cbn; auto.
  - eexists. split; [reflexivity|]. split; [now constructor|]. repeat split; cbn; auto.
  - eexists. split; [reflexivity|]. split; [now constructor|]. repeat split; cbn; auto.
Qed.

Lemma is_inc_mark : forall m, is_inc (mark_bad m) = is_inc m. Proof. now destruct m. Qed.
Lemma mark_not_yes : forall m, mark_bad m <> tsYES. Proof. now destruct m. Qed.

(* what the evaluation of the models leaves alone *)
Lemma events_sys : forall l x, W x -> Forall ev_ok l ->
  exists y, foldM (do_event A) l x = Some y /\ W y /\ s_mat A y = s_mat A x /\ cnt x y /\
    is_inc (s_inc A y) = is_inc (s_inc A x) /\ s_log A y = s_log A x /\ s_rhs A y = s_rhs A x.
Proof.
  induction l as [|e l IH]; intros x HW Hl; cbn [foldM].
  - exists x. unfold cnt. split; [reflexivity|]. split; [exact HW|]. repeat split; auto.
  - inversion Hl as [|? ? He Hl']; subst. destruct (do_event_sys e x HW He) as (y & E & Wy & My & Cy & Iy & Ly & Ry).
    rewrite E. cbn [bind]. destruct (IH y Wy Hl') as (z & Ez & Wz & Mz & Cz & Iz & Lz & Rz).
    exists z. split; [assumption|]. split; [assumption|]. split; [congruence|].
    split; [unfold cnt in *; intuition congruence|]. split; [|split; congruence].
    rewrite Iz. destruct Iy as [-> | ->]; [reflexivity|apply is_inc_mark].
Qed.

(* between iterations: the factors are in step whenever the mode is YES *)
Definition Yb (x : sim A) : Prop := s_inc A x = tsYES -> Y x.

Lemma unload_sys : forall o k mask x, W x -> (k < n)%nat ->
  exists y, unload A o k mask x = Some y /\ W y /\ s_inc A y = mark_bad (s_inc A x) /\ cnt x y /\ s_log A y = s_log A x /\
    s_loadq A y = s_loadq A x.
Proof.
  intros o k mask x [H1 H2 H3 H4 H5] Hk. unfold unload.
  destruct (nth_error_lt _ (s_devs A x) k ltac:(lia)) as (d & Ed). rewrite Ed. cbn [bind].
  assert (Hd : dev_ok d). { rewrite Forall_forall in H2. apply H2. now apply nth_error_In with k. }
  set (x1 := with_inc A _ _).
  assert (W1 : W x1).
  { constructor; cbn; try assumption; [|now rewrite set_nth_length]. apply set_nth_Forall; [assumption|]. now apply zero_new_ok. }
  destruct (load_dev_sys o mask k x1 W1 Hk) as (y & E & Wy & _ & M & r & ds & ->).
  eexists. split; [exact E|]. split; [assumption|]. now repeat split.
Qed.

Lemma aevents_sys : forall o l x, W x -> Forall aev_ok l -> Yb x ->
  exists y, foldM (do_aevent A o) l x = Some y /\ W y /\ Yb y /\ cnt x y /\ s_log A y = s_log A x /\
    (s_inc A x <> tsYES -> s_inc A y <> tsYES).
Proof.
  intros o. induction l as [|e l IH]; intros x HW Hl HY; cbn [foldM].
  - exists x. unfold cnt. split; [reflexivity|]. split; [exact HW|]. repeat split; auto.
  - inversion Hl as [|? ? He Hl']; subst.
    assert (H : exists y, do_aevent A o e x = Some y /\ W y /\ Yb y /\ cnt x y /\ s_log A y = s_log A x /\
       (s_inc A x <> tsYES -> s_inc A y <> tsYES)).
    { destruct e as [e|k mask]; cbn [do_aevent aev_ok] in *.
      - destruct (do_event_sys e x HW He) as (y & E & Wy & My & Cy & Iy & Ly & Ry).
        exists y. split; [assumption|]. split; [assumption|]. split.
        + intros Hy. unfold Y. rewrite My. destruct Iy as [Iy|Iy]; [|exfalso; apply (mark_not_yes (s_inc A x)); congruence].
          apply HY. congruence.
        + split; [assumption|]. split; [assumption|]. intros Hn Hy. destruct Iy as [Iy|Iy]; [congruence|].
          apply (mark_not_yes (s_inc A x)). congruence.
      - destruct (unload_sys o k mask x HW He) as (y & E & Wy & Iy & Cy & Ly & _).
        exists y. split; [assumption|]. split; [assumption|]. split.
        + intros Hy. exfalso. apply (mark_not_yes (s_inc A x)). congruence.
        + split; [assumption|]. split; [assumption|]. intros _ Hy. apply (mark_not_yes (s_inc A x)). congruence. }
    destruct H as (y & E & Wy & Yy & Cy & Ly & Ny). rewrite E. cbn [bind].
    destruct (IH y Wy Hl' Yy) as (z & Ez & Wz & Yz & Cz & Lz & Nz).
    exists z. split; [assumption|]. split; [assumption|]. split; [assumption|].
    split; [unfold cnt in *; intuition congruence|]. split; [congruence|]. tauto.
Qed.

(* whether set_flags leaves the loop in incremental mode *)
Lemma set_flags_inc : forall o x, is_inc (s_inc A (set_flags A o x)) = true ->
  (s_inc A x = tsYES \/ (s_inc A x = tsNO /\ s_iter A x <> 0)) /\ s_inc A (set_flags A o x) = tsYES.
Proof.
  intros o x. unfold set_flags. destruct (o_incmode A o); cbn [negb]; [|discriminate]. cbn [with_flags s_inc s_iter].
  destruct (s_inc A x) eqn:Ei; [| |discriminate]; destruct (s_iter A x =? o_trlow A o); try discriminate;
    destruct (Z.eqb_spec (s_iter A x) 0); cbn; rewrite ?Ei; intros H; try discriminate; auto.
Qed.
Lemma set_flags_frame : forall o x, exists m, set_flags A o x = with_inc A m (with_flags A false false (s_conv A x) x).
Proof.
  intros o x. unfold set_flags. destruct (o_incmode A o); cbn [negb]; [|now eexists]. cbn [with_flags s_inc s_iter].
  destruct (s_inc A x) eqn:E; destruct (s_iter A x =? o_trlow A o); destruct (s_iter A x =? 0); try (now eexists);
    (exists (s_inc A x); now destruct x).
Qed.

Lemma clear_sys : forall o x, W x -> (is_inc (s_inc A x) = true -> Y x) ->
  exists y, clear_arrays A o x = Some y /\ W y /\ (is_inc (s_inc A y) = true -> Y y) /\
    (exists M r, y = with_sys A M r x) /\
    (is_inc (s_inc A x) = true -> y = x).
Proof.
  intros o x HW HY. unfold clear_arrays. destruct (is_inc (s_inc A x)) eqn:E.
  { exists x. split; [reflexivity|]. split; [assumption|]. split; [now rewrite E|]. split; [|reflexivity].
    exists (s_mat A x), (s_rhs A x). now destruct x. }
  destruct HW as [((Hw & Sh) & Sh0 & Em) H2 H3 H4 H5].
  destruct (dezero_spec A (o_gmin A o) (zero A (aa (s_mat A x)))) as (D & ED & ShD & _).
  { exact Hw. }
  rewrite ED. cbn [bind]. eexists. split; [reflexivity|]. split.
  - constructor; cbn; try assumption.
    assert (ShD' : shape (aa (s_mat A x)) D) by exact ShD.
    split; [split; [now apply (shape_wf A (aa (s_mat A x)))|]|split; [|assumption]].
    + cbn. destruct Sh, ShD'; split; congruence.
    + cbn. now apply shape_trans with (aa (s_mat A x)).
  - split; [cbn; intros X; congruence|]. split; [now do 2 eexists|discriminate].
Qed.

Lemma load_all_sys : forall o x, W x ->
  exists y, load_all A o x = Some y /\ W y /\ (Y x -> Y y) /\ (exists M r ds, y = with_sys A M r (with_devs A ds x)).
Proof.
  intros o x HW. unfold load_all.
  destruct (foldM_ind nat (sim A) (fun _ y => W y /\ (Y x -> Y y) /\ (exists M r ds, y = with_sys A M r (with_devs A ds x)))
    (fun k y => let* d := nth_error (s_devs A y) k in
                    if is_inc (s_inc A y) && d_const A d then Some y else load_dev A o all k y)
        (seq 0 (length (s_devs A x))) x) as (y & E & H).
  - split; [assumption|]. split; [tauto|]. exists (s_mat A x), (s_rhs A x), (s_devs A x). now destruct x.
  - intros done k y Hk (Wy & Yy & M & r & ds & Ey). apply in_seq in Hk. rewrite (W_len x HW) in Hk.
    destruct (nth_error_lt _ (s_devs A y) k) as (d & Ed); [rewrite (W_len y Wy); lia|]. rewrite Ed. cbn [bind].
    destruct (is_inc (s_inc A y) && d_const A d).
    + exists y. split; [reflexivity|]. split; [assumption|]. split; [assumption|]. now exists M, r, ds.
    + destruct (load_dev_sys o all k y Wy ltac:(lia)) as (z & Ez & Wz & Yz & M' & r' & ds' & Eq).
      exists z. split; [assumption|]. split; [assumption|]. split; [tauto|]. exists M', r', ds'. now rewrite Eq, Ey.
  - exists y. tauto.
Qed.

Lemma load_matrix_sys : forall o x, W x ->
  exists y, load_matrix A o x = Some y /\ W y /\ (Y x -> Y y) /\
    (exists M r ds, y = with_loadq A [] (with_sys A M r (with_devs A ds x))).
Proof.
  intros o x HW. unfold load_matrix. destruct (o_traceload A o && is_inc (s_inc A x)).
  - destruct (foldM_ind nat (sim A) (fun _ y => W y /\ (Y x -> Y y) /\ (exists M r ds, y = with_sys A M r (with_devs A ds x)))
      (load_dev A o all) (rev (s_loadq A x)) x) as (y & E & Wy & Yy & M & r & ds & Eq).
    + split; [assumption|]. split; [tauto|]. exists (s_mat A x), (s_rhs A x), (s_devs A x). now destruct x.
    + intros done k y Hk (Wy & Yy & M & r & ds & Ey). apply in_rev in Hk.
      pose proof (W_q x HW) as Hq. rewrite Forall_forall in Hq.
      destruct (load_dev_sys o all k y Wy (Hq k Hk)) as (z & Ez & Wz & Yz & M' & r' & ds' & Eq).
      exists z. split; [assumption|]. split; [assumption|]. split; [tauto|]. exists M', r', ds'. now rewrite Eq, Ey.
    + rewrite E. cbn [bind]. eexists. split; [reflexivity|]. split.
      * destruct Wy. constructor; cbn; auto.
      * split; [exact Yy|]. exists M, r, ds. now rewrite Eq.
  - destruct (load_all_sys o (with_loadq A [] x)) as (y & E & Wy & Yy & M & r & ds & Eq).
    { destruct HW. constructor; cbn; auto. }
    exists y. split; [assumption|]. split; [assumption|]. split; [exact Yy|]. exists M, r, ds. now rewrite Eq.
Qed.

Lemma solve_equations_sys : forall o full x, W x -> (is_inc (s_inc A x) = true -> Y x) ->
  exists y M v, solve_equations A o full x = Some y /\ W y /\ Y y /\
    y = with_log A (mksnap A full (o_gmin A o) (s_mat A x) (s_rhs A x) (s_devs A x) (lu M) v :: s_log A x)
          (with_v0 A v (with_sys A M (s_rhs A x) x)) /\ aa M = aa (s_mat A x) /\
    fbsub3 A (lu M) (s_rhs A x) (s_v0 A x) = Some v.
Proof.
  intros o full x [(Hm & Sh & Em) H2 H3 H4 H5] HY. unfold solve_equations.
  destruct (lu_decomp_spec A (o_lubypass A o && is_inc (s_inc A x)) (s_mat A x) Hm) as (M & E & Ea & Emp & Hm2 & HL & Hs).
  { intros Hb. apply andb_prop in Hb. now apply HY. }
  rewrite E. cbn [bind].
  assert (Hwl : wf (lu M)). { destruct Hm2 as (Hw2 & Sh2). now apply (shape_wf A (aa M)). }
  destruct (fbsub3_total (lu M) (s_rhs A x) (s_v0 A x) Hwl) as (v & Ev). rewrite Ev. cbn [bind].
  exists (with_log A (mksnap A full (o_gmin A o) (s_mat A x) (s_rhs A x) (s_devs A x) (lu M) v :: s_log A x)
          (with_v0 A v (with_sys A M (s_rhs A x) x))), M, v.
  split; [reflexivity|].
  split; [|split; [exact Hs|split; [reflexivity|split; assumption]]].
  constructor; cbn; try assumption.
  - split; [assumption|]. split; [now rewrite Ea|congruence].
  - constructor; [|assumption]. split; [now split; [|split]|]. cbn. rewrite Em in HL. split; [assumption|].
    destruct Hm2 as (_ & Sh2). rewrite Ea in Sh2. split; [now apply shape_trans with (aa (s_mat A x))|].
    now exists (s_v0 A x).
Qed.

Definition step_ok (st : step A) : Prop := Forall ev_ok (st_events A st).

(* one pass of the loop; ok at the start: in mode YES, or in mode NO after the first pass, the
   factors are in step *)
Definition Yi (x : sim A) : Prop := s_inc A x = tsYES \/ (s_inc A x = tsNO /\ s_iter A x <> 0) -> Y x.

Lemma iteration_sys : forall o st x cc, W x -> step_ok st -> Yi x -> 0 <= s_iter A x ->
  exists y cc1, iteration A o st x cc = Some (y, cc1) /\ W y /\ Yb y /\ (s_conv A y = false -> Y y) /\
    s_iter A y = s_iter A x + 1 /\ s_print A y = s_print A x + 1 /\ s_total A y = s_total A x + 1 /\ s_loadq A y = [].
Proof.
  intros o st x cc HW Hst HY Hit. unfold iteration.
  destruct (set_flags_frame o x) as (m & Ef).
  assert (W1 : W (set_flags A o x)). { rewrite Ef. destruct HW. constructor; cbn; auto. }
  assert (Y1 : is_inc (s_inc A (set_flags A o x)) = true -> Y (set_flags A o x)).
  { intros Hi. apply set_flags_inc in Hi. destruct Hi as (Hi & _). specialize (HY Hi). now rewrite Ef. }
  destruct (clear_sys o (set_flags A o x) W1 Y1) as (x2 & E2 & W2 & Y2 & (M2 & r2 & Eq2) & _).
  rewrite E2. cbn [bind].
  set (x3 := with_iters A _ _ _ x2).
  assert (W3 : W x3). { destruct W2. constructor; cbn; auto. }
  destruct (events_sys (st_events A st) x3 W3 Hst) as (x4 & E4 & W4 & M4 & C4 & I4 & L4 & R4).
  rewrite E4. cbn [bind].
  set (cc1 := if st_conv A st then _ else 0). set (conv := if cc1 <=? o_itermin A o then false else _).
  set (x5 := with_flags A _ _ conv x4).
  assert (W5 : W x5). { destruct W4. constructor; cbn; auto. }
  assert (Y5 : is_inc (s_inc A x5) = true -> Y x5).
  { cbn. rewrite I4. cbn. intros Hi. unfold Y. cbn. rewrite M4. cbn. now apply Y2. }
  assert (C5 : s_iter A x5 = s_iter A x + 1 /\ s_print A x5 = s_print A x + 1 /\ s_total A x5 = s_total A x + 1).
  { destruct C4 as (C4a & C4b & C4c). cbn. rewrite C4a, C4b, C4c. cbn. rewrite Eq2. cbn. rewrite Ef. now cbn. }
  destruct (negb conv || negb (o_fbbypass A o) || o_lt99 A o (s_damp A x5)) eqn:Hbr.
  - set (x6 := set_damp A o x5).
    assert (E6 : exists dm, x6 = with_damp A dm x5).
    { unfold x6, set_damp. clearbody x5.
      repeat match goal with |- context [if ?b then _ else _] => destruct b end; eexists; reflexivity. }
    destruct E6 as (dm & E6).
    assert (W6 : W x6). { rewrite E6. destruct W5. constructor; cbn; auto. }
    destruct (load_matrix_sys o x6 W6) as (x7 & E7 & W7 & Y7 & M7 & r7 & ds7 & Eq7). rewrite E7. cbn [bind].
    assert (Y7' : is_inc (s_inc A x7) = true -> Y x7).
    { intros Hi. apply Y7. rewrite E6. apply Y5. rewrite Eq7, E6 in Hi. exact Hi. }
    destruct (solve_equations_sys o (negb (is_inc (s_inc A (set_flags A o x)))) x7 W7 Y7') as (x8 & M & v & E8 & W8 & Y8 & Eq8 & _ & _).
    rewrite E8. cbn [bind]. exists x8, cc1. split; [reflexivity|]. split; [assumption|]. split; [intros _; assumption|].
    split; [intros _; assumption|]. rewrite Eq8, Eq7, E6. cbn in C5 |- *. tauto.
  - apply orb_false_elim in Hbr. destruct Hbr as (Hbr & _). apply orb_false_elim in Hbr. destruct Hbr as (Hc & _).
    eexists _, cc1. split; [reflexivity|]. split; [destruct W5; constructor; cbn; auto|]. split.
    + intros Hy. apply Y5. cbn in Hy |- *. now rewrite Hy.
    + split; [cbn; intros X; rewrite X in Hc; discriminate|]. cbn in C5 |- *. tauto.
Qed.

Definition world_ok (w : world A) : Prop :=
  forall t, Forall aev_ok (w_adv A w t) /\ step_ok (w_step A w t).

Lemma loop_sys : forall o itl w fuel x cc, world_ok w -> W x -> Yi x -> 0 <= s_iter A x ->
  (Z.to_nat (itl + 1 - s_iter A x) < fuel)%nat ->
  exists y, loop A fuel o itl w x cc = Some y /\ W y /\ Yb y /\ s_loadq A y = [] /\
    s_iter A x < s_iter A y <= Z.max (itl + 1) (s_iter A x + 1) /\
    s_print A y - s_print A x = s_iter A y - s_iter A x /\ s_total A y - s_total A x = s_iter A y - s_iter A x /\
    (s_conv A y = false -> itl < s_iter A y).
Proof.
  intros o itl w. induction fuel as [|f IH]; intros x cc Hw HW HY Hit Hf; [lia|]. cbn [loop].
  destruct (iteration_sys o (w_step A w (s_total A x)) x cc HW (proj2 (Hw _)) HY Hit)
    as (y & cc1 & E & Wy & Yy & Yc & I1 & P1 & T1 & Q1).
  rewrite E. cbn [bind]. destruct (s_conv A y) eqn:Ec; cbn [negb andb].
  { exists y. split; [reflexivity|]. split; [assumption|]. split; [assumption|]. split; [assumption|].
    rewrite I1, P1, T1. repeat split; try lia; try congruence. }
  destruct (Z.ltb_spec itl (s_iter A y)) as [L|L]; cbn [negb].
  - exists y. split; [reflexivity|]. split; [assumption|]. split; [assumption|]. split; [assumption|].
    repeat split; try lia.
  - destruct (IH y cc1 Hw Wy) as (z & Ez & Wz & Yz & Qz & Iz & Pz & Tz & Cz).
    + intros _. now apply Yc.
    + lia.
    + lia.
    + exists z. split; [assumption|]. split; [assumption|]. split; [assumption|]. split; [assumption|].
      repeat split; try lia; try assumption.
Qed.

Lemma solve_sys : forall o itl w x, world_ok w -> W x -> Yb x -> s_loadq A x = [] -> 0 <= itl ->
  exists y, solve A o itl w x = Some y /\ W y /\ Yb y /\ s_loadq A y = [] /\
    1 <= s_iter A y <= itl + 1 /\ s_print A y = s_print A x + s_iter A y /\ s_total A y = s_total A x + s_iter A y /\
    (s_conv A y = false -> s_iter A y = itl + 1).
Proof.
  intros o itl w x Hw HW HY Hq Hi. unfold solve. rewrite Hq.
  set (x1 := with_iters A _ _ _ _).
  assert (W1 : W x1). { destruct HW. constructor; cbn; auto. }
  destruct (aevents_sys o (w_adv A w (s_total A x1)) x1 W1 (proj1 (Hw _)) HY) as (x2 & E2 & W2 & Y2 & C2 & L2 & _).
  rewrite E2. cbn [bind]. destruct C2 as (C2a & C2b & C2c). cbn in C2a, C2b, C2c.
  destruct (loop_sys o itl w (Z.to_nat (itl + 2)) (with_damp A (o_dampmax A o) x2) 0 Hw) as (y & E & Wy & Yy & Qy & I & P & T' & C).
  - destruct W2. constructor; cbn; auto.
  - intros [H|(H & H')]; [apply Y2, H|]. cbn in H'. congruence.
  - cbn. lia.
  - cbn. lia.
  - cbn in *. exists y. split; [assumption|]. split; [assumption|]. split; [assumption|]. split; [assumption|].
    repeat split; try lia.
Qed.

Lemma homotopy_sys : forall cs o itl w fuel g x, world_ok w -> W x -> Yb x -> s_loadq A x = [] -> 0 <= itl ->
  (Z.to_nat (o_sstep A o - s_print A x) <= fuel)%nat ->
  exists y, homotopy A fuel cs o itl w g x = Some y /\ W y /\ Yb y /\ s_loadq A y = [].
Proof.
  intros cs o itl w. induction fuel as [|f IH]; intros g x Hw HW HY Hq Hi Hf; cbn [homotopy].
  - replace (s_print A x <? o_sstep A o) with false by lia. cbn [andb]. now exists x.
  - destruct ((s_print A x <? o_sstep A o) && c_gt A cs g (o_gmin A o)) eqn:B; [|now exists x].
    apply andb_prop in B. destruct B as (B & _). apply Z.ltb_lt in B.
    destruct (solve_sys (with_gmin A g 0 o) itl w (with_inc A tsNO x) Hw) as (y & E & Wy & Yy & Qy & I & P & _).
    + destruct HW. constructor; cbn; auto.
    + intros X. discriminate X.
    + assumption.
    + assumption.
    + rewrite E. cbn [bind]. cbn in P. apply IH; auto. lia.
Qed.

Lemma solve_with_homotopy_sys : forall cs o itl w x, world_ok w -> W x -> Yb x -> s_loadq A x = [] -> 0 <= itl ->
  exists y, solve_with_homotopy A cs o itl w x = Some y /\ W y /\ Yb y /\ s_loadq A y = [].
Proof.
  intros cs o itl w x Hw HW HY Hq Hi. unfold solve_with_homotopy.
  destruct (solve_sys o itl w x Hw HW HY Hq Hi) as (y & E & Wy & Yy & Qy & _). rewrite E. cbn [bind].
  destruct (negb (s_conv A y) && (0 <? o_sstep A o)); [|now exists y].
  destruct (homotopy_sys cs o itl w (Z.to_nat (o_sstep A o - s_print A y)) (c_one A cs) y Hw Wy Yy Qy Hi (le_n _))
    as (z & Ez & Wz & Yz & Qz). rewrite Ez. cbn [bind].
  destruct (solve_sys o itl w z Hw Wz Yz Qz Hi) as (u & Eu & Wu & Yu & Qu & _). now exists u.
Qed.

Definition cmd_ok (c : cmd A) : Prop :=
  match c with
  | CSolve _ _ itl => 0 <= itl
  | CHomotopy _ _ _ itl => 0 <= itl
  | CBad _ => True
  | COutside _ _ es _ => Forall aev_ok es
  end.

Lemma do_cmd_sys : forall w c x, world_ok w -> cmd_ok c -> W x -> Yb x -> s_loadq A x = [] ->
  exists y, do_cmd A w c x = Some y /\ W y /\ Yb y /\ s_loadq A y = [].
Proof.
  intros w c x Hw Hc HW HY Hq. destruct c as [o itl|cs o itl| |o es p]; cbn [do_cmd cmd_ok] in *.
  - destruct (solve_sys o itl w x Hw HW HY Hq Hc) as (y & E & Wy & Yy & Qy & _). now exists y.
  - now apply solve_with_homotopy_sys.
  - eexists. split; [reflexivity|]. split; [destruct HW; constructor; cbn; auto|]. split; [intros X; discriminate X|assumption].
  - destruct (aevents_sys o es x HW Hc HY) as (y & E & Wy & Yy & _ & _ & _). rewrite E. cbn [bind].
    eexists. split; [reflexivity|]. split; [destruct Wy; constructor; cbn; auto|]. split; [exact Yy|reflexivity].
Qed.

Lemma cmds_sys : forall w l x, world_ok w -> Forall cmd_ok l -> W x -> Yb x -> s_loadq A x = [] ->
  exists y, foldM (do_cmd A w) l x = Some y /\ W y /\ Yb y /\ s_loadq A y = [].
Proof.
  intros w. induction l as [|c l IH]; intros x Hw Hl HW HY Hq; cbn [foldM]; [now exists x|].
  inversion Hl as [|? ? Hc Hl']; subst. destruct (do_cmd_sys w c x Hw Hc HW HY Hq) as (y & E & Wy & Yy & Qy).
  rewrite E. cbn [bind]. now apply IH.
Qed.
End S.
