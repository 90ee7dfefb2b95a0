(* What the matrix and the right-hand side contain during the iteration loop, in exact arithmetic. *)
Require Import ZArith List Bool Lia.
Require Import Verif.Loops Verif.FieldSums Verif.Matrix_Model Verif.Matrix_Layout Verif.Matrix_LU Verif.Matrix_Load
  Verif.Matrix_Exact Verif.Matrix_Spec Verif.Matrix_Main Verif.Solver_Model Verif.Solver_Proofs.
Import ListNotations.
Local Open Scope Z_scope.

Section S.
Variable K : fld.
Add Field Kfs : (fth K).
Notation A := (exA K).
Notation T := (F K).
Notation "a +' b" := (fadd K a b) (at level 50, left associativity).
Notation "a -' b" := (fsub K a b) (at level 50, left associativity).
Notation "a *' b" := (fmul K a b) (at level 40, left associativity).

Ltac kr := lazymatch goal with |- @eq _ ?a ?b => change (@eq (F K) a b) end; apply sub_eq; ring.
(* the entry at (r,c), r,c >= 1, of what a unit value in this place means, and its share of the
   right-hand side *)
Definition mstamp (p : place) (r c : Z) : T :=
  match p with
  | PInode o1 o2 i1 => (delta K r o1 -' delta K r o2) *' delta K c i1 +' (delta K c o1 -' delta K c o2) *' delta K r i1
  | PShunt o1 o2 => (delta K r o1 -' delta K r o2) *' (delta K c o1 -' delta K c o2)
  | PCouple o1 o2 => fopp K (delta K r o1 *' delta K c o2 +' delta K r o2 *' delta K c o1)
  | PActive o1 o2 i1 i2 => (delta K r o1 -' delta K r o2) *' (delta K c i1 -' delta K c i2)
  | PDiagonal m => delta K r m *' delta K c m
  | PPoint n1 n2 => delta K r n1 *' delta K c n2
  | PSource _ _ | PSourcePoint _ => f0 K
  end.
Definition rstamp (p : place) (r : Z) : T :=
  match p with
  | PSource o1 o2 => delta K r o2 -' delta K r o1
  | PSourcePoint m => delta K r m
  | _ => f0 K
  end.
(* the contributions of the values loaded last *)
Definition slots_m (mf : T) (l : list (slot A)) (r c : Z) : T :=
  lsum K (map (fun sl => mf *' s_old A sl *' mstamp (s_place A sl) r c) l).
Definition slots_r (mf : T) (l : list (slot A)) (r : Z) : T :=
  lsum K (map (fun sl => mf *' s_old A sl *' rstamp (s_place A sl) r) l).
Definition dev_m (d : dev A) := slots_m (d_m A d) (d_slots A d).
Definition dev_r (d : dev A) := slots_r (d_m A d) (d_slots A d).
Definition devs_m (ds : list (dev A)) (r c : Z) : T := lsum K (map (fun d => dev_m d r c) ds).
Definition devs_r (ds : list (dev A)) (r : Z) : T := lsum K (map (fun d => dev_r d r) ds).

Variable D0 : data A.
Variable mp : T.
Variable n : nat.
Hypothesis HD0 : wf D0.
Notation s := (size D0).

(* M, rhs = g on the diagonal, plus the given contributions *)
Definition holds (M : mat A) (rhs : Z -> T) (fm : Z -> Z -> T) (fr : Z -> T) : Prop :=
  forall r, 1 <= r <= s -> rhs r = fr r /\ forall c, 1 <= c <= s -> ext (aa M) r c = fm r c.

Lemma lsum_cons : forall x l, lsum K (x :: l) = x +' lsum K l. Proof. reflexivity. Qed.

Lemma do_load_ext : forall x M M' r c, do_load A x M = Some M' -> Sys A D0 mp M -> load_ok A D0 x ->
  1 <= r <= s -> 1 <= c <= s -> ext (aa M') r c = ext (aa M) r c +' @stamp K A (fun v => v) x r c.
Proof.
  intros x M M' r c E HS Hx Hr Hc. destruct (do_load_sys A D0 mp x M HS Hx) as (M1 & E1 & _ & _ & HL).
  assert (M1 = M') by congruence. subst M1. destruct HL as (Ea & _ & _ & _ & Hacts).
  destruct HS as ((Hw & _) & (Sz & _) & _).
  rewrite Ea, ext_fold by (assumption || (intros a Ha; now apply Hacts)). rewrite acts_stamp by lia. reflexivity.
Qed.

Lemma add_i_val : forall M k d (r : Z -> T) r' j, size (aa M) = s -> 0 <= k <= s -> add_i A M k d r = Some r' -> 1 <= j ->
  r' j = r j +' d *' delta K j k.
Proof.
  intros M k d r r' j Hz Hk E Hj. unfold add_i, delta in *. destruct (Z.eqb_spec k 0) as [->|N].
  - injection E as <-. replace (j =? 0) with false by lia. kr.
  - rewrite vget_in in E by lia. cbn [bind] in E. rewrite vset_in in E by lia. injection E as <-. unfold upd.
    destruct (Z.eqb_spec j k) as [->|]; cbn [nadd exA]; kr.
Qed.
Lemma sub_i_val : forall M k d (r : Z -> T) r' j, size (aa M) = s -> 0 <= k <= s -> sub_i A M k d r = Some r' -> 1 <= j ->
  r' j = r j -' d *' delta K j k.
Proof.
  intros M k d r r' j Hz Hk E Hj. unfold sub_i, delta in *. destruct (Z.eqb_spec k 0) as [->|N].
  - injection E as <-. replace (j =? 0) with false by lia. kr.
  - rewrite vget_in in E by lia. cbn [bind] in E. rewrite vset_in in E by lia. injection E as <-. unfold upd.
    destruct (Z.eqb_spec j k) as [->|]; cbn [nsub exA]; kr.
Qed.

Lemma load_place_val : forall p d M rh M' rh', Sys A D0 mp M -> place_ok A D0 p ->
  load_place A p d M rh = Some (M', rh') ->
  forall r, 1 <= r <= s -> rh' r = rh r +' d *' rstamp p r /\
    forall c, 1 <= c <= s -> ext (aa M') r c = ext (aa M) r c +' d *' mstamp p r c.
Proof.
  intros p d M rh M' rh' HS Hp E r Hr. unfold load_place in E. cbn [nzero exA] in E.
  destruct (fz K d) eqn:Ez.
  { apply fz_ok in Ez. subst d. injection E as <- <-. split; [kr|]. intros; kr. }
  assert (Hz : size (aa M) = s) by (destruct HS as (_ & (Hz & _) & _); exact Hz).
  destruct p as [o1 o2 i1|o1 o2|o1 o2|o1 o2|o1 o2 i1 i2|m|m|n1 n2]; cbn [place_ok rstamp mstamp] in *.
  - destruct Hp as (H1 & H2).
    destruct (do_load A (LCouple o1 i1 (nsub A (n0 A) d)) M) as [M1|] eqn:E1; [|discriminate]. cbn [bind] in E.
    destruct (do_load A (LCouple o2 i1 d) M1) as [M2|] eqn:E2; [|discriminate]. cbn [bind] in E. injection E as <- <-.
    split; [kr|]. intros c Hc.
    destruct (do_load_sys A D0 mp (LCouple o1 i1 (nsub A (n0 A) d)) M HS H1) as (M1' & E1' & S1 & _).
    assert (M1' = M1) by congruence. subst M1'.
    rewrite (do_load_ext _ _ _ r c E2 S1 H2 Hr Hc), (do_load_ext _ _ _ r c E1 HS H1 Hr Hc).
    cbn [stamp nsub n0 exA]. kr.
  - destruct (do_load A (LSym o1 o2 d) M) as [M1|] eqn:E1; [|discriminate]. cbn [bind] in E. injection E as <- <-.
    split; [kr|]. intros c Hc. rewrite (do_load_ext _ _ _ r c E1 HS Hp Hr Hc). reflexivity.
  - destruct Hp as (H1 & H2). destruct (add_i A M o2 d rh) as [r1|] eqn:E1; [|discriminate]. cbn [bind] in E.
    destruct (sub_i A M o1 d r1) as [r2|] eqn:E2; [|discriminate]. cbn [bind] in E. injection E as <- <-.
    split; [|intros; kr]. rewrite (sub_i_val _ _ _ _ _ r Hz H1 E2), (add_i_val _ _ _ _ _ r Hz H2 E1) by lia. kr.
  - destruct (do_load A (LCouple o1 o2 d) M) as [M1|] eqn:E1; [|discriminate]. cbn [bind] in E. injection E as <- <-.
    split; [kr|]. intros c Hc. rewrite (do_load_ext _ _ _ r c E1 HS Hp Hr Hc). cbn [stamp]. kr.
  - destruct (do_load A (LAsym o1 o2 i1 i2 d) M) as [M1|] eqn:E1; [|discriminate]. cbn [bind] in E. injection E as <- <-.
    split; [kr|]. intros c Hc. rewrite (do_load_ext _ _ _ r c E1 HS Hp Hr Hc). reflexivity.
  - destruct (add_i A M m d rh) as [r1|] eqn:E1; [|discriminate]. cbn [bind] in E. injection E as <- <-.
    split; [|intros; kr]. now rewrite (add_i_val _ _ _ _ _ r Hz Hp E1) by lia.
  - destruct (do_load A (LDiag m d) M) as [M1|] eqn:E1; [|discriminate]. cbn [bind] in E. injection E as <- <-.
    split; [kr|]. intros c Hc. rewrite (do_load_ext _ _ _ r c E1 HS Hp Hr Hc). reflexivity.
  - destruct (do_load A (LPoint n1 n2 d) M) as [M1|] eqn:E1; [|discriminate]. cbn [bind] in E. injection E as <- <-.
    split; [kr|]. intros c Hc. rewrite (do_load_ext _ _ _ r c E1 HS Hp Hr Hc). reflexivity.
Qed.

(* noise suppression has no effect *)
Definition quiet (o : opts A) : Prop := forall z a, o_noise A o z a = true -> z = f0 K.

(* what dampdiff returns, compared with the value it leaves *)
Lemma dampdiff_val : forall o x mf nw old d nw', quiet o -> dampdiff A o x mf nw old = (d, nw') ->
  d = mf *' (if is_inc (s_inc A x) then nw' -' old else nw').
Proof.
  intros o x mf nw old d nw' Hq E. unfold dampdiff in E.
  assert (Hd : dn_diff A o nw old = nw -' old).
  { unfold dn_diff. cbn [nsub n0 exA]. destruct (o_noise A o (nw -' old) nw) eqn:B; [|reflexivity].
    apply Hq in B. now rewrite B. }
  rewrite Hd in E. destruct (s_iter A x <=? 1); injection E as <- <-; cbn [nmul nadd exA];
    destruct (is_inc (s_inc A x)); try reflexivity. f_equal. kr.
Qed.

Lemma load_slots_val : forall o x mf l mask M rh l' M' rh', quiet o -> Sys A D0 mp M ->
  Forall (fun sl => place_ok A D0 (s_place A sl)) l ->
  load_slots A o x mf mask l M rh = Some (l', M', rh') ->
  (is_inc (s_inc A x) = true \/ forall k, mask k = true) ->
  forall r, 1 <= r <= s ->
    (rh' r = rh r +' slots_r mf l' r -' (if is_inc (s_inc A x) then slots_r mf l r else f0 K)) /\
    forall c, 1 <= c <= s -> ext (aa M') r c = ext (aa M) r c +' slots_m mf l' r c -'
      (if is_inc (s_inc A x) then slots_m mf l r c else f0 K).
Proof.
  intros o x mf. induction l as [|sl l IH]; intros mask M rh l' M' rh' Hq HS Hl E Hm r Hr; cbn [load_slots] in E.
  - injection E as <- <- <-. unfold slots_r, slots_m. cbn [map lsum fold_right]. destruct (is_inc (s_inc A x)); split; intros; kr.
  - inversion Hl as [|? ? Hp Hl']; subst.
    destruct (if mask 0%nat then load_slot A o x mf sl M rh else Some (sl, M, rh)) as [((sl1, M1), r1)|] eqn:E1; [|discriminate].
    cbn [bind] in E.
    destruct (load_slots A o x mf (fun k => mask (S k)) l M1 r1) as [((l2, M2), r2)|] eqn:E2; [|discriminate].
    cbn [bind] in E. injection E as <- <- <-.
    assert (H1 : Sys A D0 mp M1 /\ (r1 r = rh r +' mf *' s_old A sl1 *' rstamp (s_place A sl1) r -'
         (if is_inc (s_inc A x) then mf *' s_old A sl *' rstamp (s_place A sl) r else f0 K)) /\
         forall c, 1 <= c <= s -> ext (aa M1) r c = ext (aa M) r c +' mf *' s_old A sl1 *' mstamp (s_place A sl1) r c -'
         (if is_inc (s_inc A x) then mf *' s_old A sl *' mstamp (s_place A sl) r c else f0 K)).
    { destruct (mask 0%nat) eqn:Em.
      - unfold load_slot in E1. destruct (dampdiff A o x mf (s_new A sl) (s_old A sl)) as (d & nw) eqn:Ed.
        destruct (load_place_sys A D0 mp HD0 (s_place A sl) d M rh HS Hp) as (M1' & r1' & Ep & S1 & _). rewrite Ep in E1.
        cbn [bind fst snd] in E1. injection E1 as <- <- <-. split; [assumption|].
        destruct (load_place_val _ _ _ _ _ _ HS Hp Ep r Hr) as (V1 & V2).
        apply dampdiff_val in Ed; [|assumption]. cbn [s_old s_place].
        rewrite V1. split.
        + rewrite Ed. destruct (is_inc (s_inc A x)); kr.
        + intros c Hc. rewrite (V2 c Hc), Ed. destruct (is_inc (s_inc A x)); kr.
      - injection E1 as <- <- <-. destruct Hm as [Hm|Hm]; [|congruence]. rewrite Hm. split; [assumption|]. split; intros; kr. }
    destruct H1 as (S1 & V1 & V2).
    destruct (IH (fun k => mask (S k)) M1 r1 l2 M2 r2 Hq S1 Hl' E2) with (r := r) as (V3 & V4); [destruct Hm; auto|assumption|].
    unfold slots_r, slots_m in *. cbn [map]. rewrite !lsum_cons. split.
    + rewrite V3, V1. destruct (is_inc (s_inc A x)); kr.
    + intros c Hc. rewrite !lsum_cons, (V4 c Hc), (V2 c Hc). destruct (is_inc (s_inc A x)); kr.
Qed.

Lemma lsum_set_nth : forall X (f : X -> T) k v l d, nth_error l k = Some d ->
  lsum K (map f (set_nth k v l)) = lsum K (map f l) -' f d +' f v.
Proof.
  intros X f. induction k as [|k IH]; destruct l as [|h l]; intros d E; try discriminate; cbn [set_nth map nth_error] in *.
  - injection E as ->. rewrite !lsum_cons. kr.
  - rewrite !lsum_cons, (IH v l d E). kr.
Qed.
Lemma firstn_set_nth : forall X k (v : X) l, (k < length l)%nat -> firstn (S k) (set_nth k v l) = firstn k l ++ [v].
Proof.
  intros X. induction k as [|k IH]; destruct l as [|h l]; intros H; cbn [length] in H; try lia; cbn [set_nth].
  - reflexivity.
  - cbn [firstn app]. f_equal. apply IH. lia.
Qed.
Lemma nth_error_set_nth : forall X k (v : X) l j, j <> k -> nth_error (set_nth k v l) j = nth_error l j.
Proof.
  intros X. induction k as [|k IH]; destruct l as [|h l]; intros j H; cbn [set_nth]; try reflexivity.
  - destruct j; [congruence|reflexivity].
  - destruct j; [reflexivity|]. cbn. apply IH. congruence.
Qed.

(* g on the diagonal plus the given devices *)
Definition sysm (g : T) (ds : list (dev A)) (r c : Z) : T := g *' delta K r c +' devs_m ds r c.
Definition content (g : T) (ds : list (dev A)) (x : sim A) : Prop :=
  holds (s_mat A x) (s_rhs A x) (sysm g ds) (devs_r ds).

Lemma load_dev_val : forall o mask k x y d, quiet o -> W A D0 mp n x -> nth_error (s_devs A x) k = Some d ->
  load_dev A o mask k x = Some y -> (is_inc (s_inc A x) = true \/ forall k, mask k = true) ->
  exists sl, s_devs A y = set_nth k (mkdev A (d_m A d) (d_const A d) sl) (s_devs A x) /\
   forall r, 1 <= r <= s ->
    s_rhs A y r = s_rhs A x r +' slots_r (d_m A d) sl r -' (if is_inc (s_inc A x) then dev_r d r else f0 K) /\
    forall c, 1 <= c <= s -> ext (aa (s_mat A y)) r c = ext (aa (s_mat A x)) r c +' slots_m (d_m A d) sl r c -'
      (if is_inc (s_inc A x) then dev_m d r c else f0 K).
Proof.
  intros o mask k x y d Hq [H1 H2 H3 H4 H5] Ed E Hm. unfold load_dev in E. rewrite Ed in E. cbn [bind] in E.
  destruct (load_slots A o x (d_m A d) mask (d_slots A d) (s_mat A x) (s_rhs A x)) as [((sl, M), rh)|] eqn:El; [|discriminate].
  cbn [bind] in E. injection E as <-. exists sl. split; [reflexivity|]. intros r Hr.
  assert (Hd : dev_ok A D0 d). { rewrite Forall_forall in H2. apply H2. now apply nth_error_In with k. }
  apply (load_slots_val _ _ _ _ _ _ _ _ _ _ Hq H1 Hd El Hm r Hr).
Qed.

(* adding differences keeps the contents *)
Lemma load_dev_inc : forall o mask k x y g, quiet o -> W A D0 mp n x -> is_inc (s_inc A x) = true ->
  load_dev A o mask k x = Some y -> content g (s_devs A x) x -> content g (s_devs A y) y.
Proof.
  intros o mask k x y g Hq HW Hi E HC.
  destruct (nth_error (s_devs A x) k) as [d|] eqn:Ed.
  2: { unfold load_dev in E. rewrite Ed in E. discriminate. }
  destruct (load_dev_val o mask k x y d Hq HW Ed E (or_introl Hi)) as (sl & Es & V). rewrite Hi in V.
  intros r Hr. destruct (HC r Hr) as (C1 & C2). destruct (V r Hr) as (V1 & V2). rewrite Es. split.
  - rewrite V1, C1. unfold devs_r. rewrite (lsum_set_nth _ (fun d => dev_r d r) k _ _ d Ed).
    change (dev_r (mkdev A (d_m A d) (d_const A d) sl) r) with (slots_r (d_m A d) sl r). kr.
  - intros c Hc. rewrite (V2 c Hc), (C2 c Hc). unfold sysm, devs_m. rewrite (lsum_set_nth _ (fun d => dev_m d r c) k _ _ d Ed).
    change (dev_m (mkdev A (d_m A d) (d_const A d) sl) r c) with (slots_m (d_m A d) sl r c). kr.
Qed.

Lemma load_all_val : forall o x y g, quiet o -> W A D0 mp n x -> load_all A o x = Some y ->
  (if is_inc (s_inc A x) then content g (s_devs A x) x else content g [] x) ->
  content g (s_devs A y) y.
Proof.
  intros o x y g Hq HW E HC. unfold load_all in E.
  set (f := fun (k : nat) (y : sim A) => let* d := nth_error (s_devs A y) k in
                    if is_inc (s_inc A y) && d_const A d then Some y else load_dev A o all k y) in E.
  set (P := fun (done : list nat) (z : sim A) => W A D0 mp n z /\ s_inc A z = s_inc A x /\ (length done <= n)%nat /\
     (if is_inc (s_inc A x) then content g (s_devs A z) z else content g (firstn (length done) (s_devs A z)) z)).
  assert (G : forall m, (m <= n)%nat -> exists z, foldM f (seq 0 m) x = Some z /\ P (seq 0 m) z).
  { induction m as [|m IH]; intros Hm.
    - exists x. split; [reflexivity|]. unfold P. cbn [seq length]. split; [assumption|]. split; [reflexivity|]. split; [lia|].
      now destruct (is_inc (s_inc A x)).
    - destruct IH as (z & Ez & Wz & Iz & _ & Cz); [lia|]. rewrite seq_S, foldM_app, Ez. cbn [bind foldM Nat.add].
      rewrite seq_length in Cz.
      destruct (nth_error_lt _ (s_devs A z) m) as (d & Ed); [rewrite (W_len A D0 mp n z Wz); lia|].
      assert (Hf : exists z', f m z = Some z' /\ W A D0 mp n z' /\ s_inc A z' = s_inc A x /\
         (if is_inc (s_inc A x) then content g (s_devs A z') z' else content g (firstn (S m) (s_devs A z')) z')).
      { unfold f. rewrite Ed. cbn [bind]. destruct (is_inc (s_inc A z) && d_const A d) eqn:Bc.
        - apply andb_prop in Bc. destruct Bc as (Bi & _). rewrite Iz in Bi. rewrite Bi in Cz |- *. now exists z.
        - destruct (load_dev_sys A D0 mp n HD0 o all m z Wz ltac:(lia)) as (z' & Ez' & Wz' & _ & M' & r' & ds' & Eq).
          exists z'. split; [assumption|]. split; [assumption|]. split; [rewrite Eq; exact Iz|].
          destruct (is_inc (s_inc A x)) eqn:Bi.
          + apply load_dev_inc with o all m z; auto. congruence.
          + destruct (load_dev_val o all m z z' d Hq Wz Ed Ez') as (sl & Es & V); [right; reflexivity|].
            rewrite Iz, Bi in V. rewrite Es, firstn_set_nth by (rewrite (W_len A D0 mp n z Wz); lia).
            intros r Hr. destruct (Cz r Hr) as (C1 & C2). destruct (V r Hr) as (V1 & V2). split.
            * rewrite V1, C1. unfold devs_r. rewrite map_app, lsum_app. cbn [map lsum fold_right].
              change (dev_r (mkdev A (d_m A d) (d_const A d) sl) r) with (slots_r (d_m A d) sl r). kr.
            * intros c Hc. rewrite (V2 c Hc), (C2 c Hc). unfold sysm, devs_m. rewrite map_app, lsum_app. cbn [map lsum fold_right].
              change (dev_m (mkdev A (d_m A d) (d_const A d) sl) r c) with (slots_m (d_m A d) sl r c). kr. }
      destruct Hf as (z' & Ef & Wz' & Iz' & Cz'). rewrite Ef. cbn [bind]. exists z'. split; [reflexivity|].
      unfold P. rewrite app_length, seq_length. cbn [length]. split; [assumption|]. split; [assumption|]. split; [lia|].
      replace (m + 1)%nat with (S m) by lia. assumption. }
  rewrite (W_len A D0 mp n x HW) in E. destruct (G n (le_n n)) as (z & Ez & Wz & Iz & _ & Cz).
  assert (z = y) by congruence. subst z. rewrite seq_length in Cz.
  destruct (is_inc (s_inc A x)); [assumption|].
  rewrite firstn_all2 in Cz by (rewrite (W_len A D0 mp n y Wz); lia). assumption.
Qed.

Lemma load_matrix_val : forall o x y g, quiet o -> W A D0 mp n x -> load_matrix A o x = Some y ->
  (if is_inc (s_inc A x) then content g (s_devs A x) x else content g [] x) ->
  content g (s_devs A y) y.
Proof.
  intros o x y g Hq HW E HC. unfold load_matrix in E. destruct (o_traceload A o && is_inc (s_inc A x)) eqn:B.
  - apply andb_prop in B. destruct B as (_ & Bi). rewrite Bi in HC.
    destruct (foldM_ind nat (sim A) (fun _ z => W A D0 mp n z /\ s_inc A z = s_inc A x /\ content g (s_devs A z) z)
      (load_dev A o all) (rev (s_loadq A x)) x) as (z & Ez & Wz & Iz & Cz).
    + now split.
    + intros done k z Hk (Wz & Iz & Cz). apply in_rev in Hk.
      pose proof (W_q A D0 mp n x HW) as Hqq. rewrite Forall_forall in Hqq.
      destruct (load_dev_sys A D0 mp n HD0 o all k z Wz (Hqq k Hk)) as (z' & Ez' & Wz' & _ & M' & r' & ds' & Eq).
      exists z'. split; [assumption|]. split; [assumption|]. split; [rewrite Eq; exact Iz|].
      apply load_dev_inc with o all k z; auto. congruence.
    + rewrite Ez in E. cbn [bind] in E. injection E as <-. exact Cz.
  - apply load_all_val with o (with_loadq A [] x); auto. destruct HW. constructor; cbn; auto.
Qed.

(* evaluation changes neither the arrays nor the values loaded last *)
Lemma put_new_old : forall l f mf r c, slots_m mf (put_new A f l) r c = slots_m mf l r c /\ slots_r mf (put_new A f l) r = slots_r mf l r.
Proof.
  induction l as [|sl l IH]; intros f mf r c; [split; reflexivity|]. unfold slots_m, slots_r in *. cbn [put_new map].
  rewrite !lsum_cons. cbn [s_old s_place]. destruct (IH (fun k => f (S k)) mf r c) as (-> & ->). now split.
Qed.
Lemma do_event_val : forall e x y, do_event A e x = Some y ->
  s_mat A y = s_mat A x /\ s_rhs A y = s_rhs A x /\
  (forall r c, devs_m (s_devs A y) r c = devs_m (s_devs A x) r c) /\ (forall r, devs_r (s_devs A y) r = devs_r (s_devs A x) r).
Proof.
  intros e x y E. destruct e as [k f q| | | |v]; cbn [do_event] in E;
    try (injection E as <-; cbn; repeat split; reflexivity).
  destruct (nth_error (s_devs A x) k) as [d|] eqn:Ed; [|discriminate]. cbn [bind] in E.
  assert (Ey : s_devs A y = set_nth k (mkdev A (d_m A d) (d_const A d) (put_new A f (d_slots A d))) (s_devs A x) /\
     s_mat A y = s_mat A x /\ s_rhs A y = s_rhs A x).
  { destruct q; injection E as <-; now cbn. }
  destruct Ey as (Ey & -> & ->). split; [reflexivity|]. split; [reflexivity|]. rewrite Ey. split.
  - intros r c. unfold devs_m. rewrite (lsum_set_nth _ (fun d => dev_m d r c) k _ _ d Ed). unfold dev_m at 3. cbn [d_m d_slots].
    rewrite (proj1 (put_new_old _ f (d_m A d) r c)). fold (dev_m d r c). kr.
  - intros r. unfold devs_r. rewrite (lsum_set_nth _ (fun d => dev_r d r) k _ _ d Ed). unfold dev_r at 3. cbn [d_m d_slots].
    rewrite (proj2 (put_new_old _ f (d_m A d) r r)). fold (dev_r d r). kr.
Qed.
Lemma events_val : forall l x y, foldM (do_event A) l x = Some y ->
  s_mat A y = s_mat A x /\ s_rhs A y = s_rhs A x /\
  (forall r c, devs_m (s_devs A y) r c = devs_m (s_devs A x) r c) /\ (forall r, devs_r (s_devs A y) r = devs_r (s_devs A x) r).
Proof.
  induction l as [|e l IH]; intros x y E; cbn [foldM] in E.
  - injection E as <-. now repeat split.
  - destruct (do_event A e x) as [z|] eqn:Ez; [|discriminate]. cbn [bind] in E.
    destruct (do_event_val e x z Ez) as (A1 & A2 & A3 & A4). destruct (IH z y E) as (B1 & B2 & B3 & B4).
    split; [congruence|]. split; [congruence|]. split; intros; [rewrite B3; apply A3|rewrite B4; apply A4].
Qed.

(* the arrays after clearing *)
Lemma clear_val : forall o x y, W A D0 mp n x -> clear_arrays A o x = Some y -> is_inc (s_inc A x) = false ->
  content (o_gmin A o) [] y.
Proof.
  intros o x y [((Hw & Sh) & Sh0 & Em) H2 H3 H4 H5] E Hi. unfold clear_arrays in E. rewrite Hi in E.
  destruct (dezero_spec A (o_gmin A o) (zero A (aa (s_mat A x)))) as (D & ED & ShD & V).
  { exact Hw. }
  rewrite ED in E. cbn [bind] in E. injection E as <-. intros r Hr. cbn [with_sys s_mat s_rhs aa].
  assert (Hsz : size D = s). { destruct ShD as (-> & _). destruct Sh0 as (<- & _). reflexivity. }
  split.
  - rewrite Hsz. replace (r <=? s) with true by lia. reflexivity.
  - intros c Hc. unfold sysm, devs_m. cbn [map lsum fold_right]. unfold delta.
    assert (HwD : wf D) by (apply (shape_wf A _ _ ShD); exact Hw).
    destruct (env_b D r c) eqn:B.
    + apply env_b_spec in B. rewrite ext_env by assumption.
      rewrite V by (now apply (shape_env A _ _ r c ShD)).
      unfold ent, zero. cbn [cells]. destruct (r =? c); cbn [nadd n0 exA]; kr.
    + assert (Hn : ~ env D r c) by (intros X; apply env_b_spec in X; congruence).
      rewrite ext_out by assumption. destruct (Z.eqb_spec r c) as [->|Hne]; [|cbn [n0 exA]; kr].
      exfalso. apply Hn. apply env_diag; [assumption|lia].
Qed.

(* ---- the loop ---- *)
(* the most recent observation (the list is newest first) in which the arrays had been cleared *)
Definition last_full (l : list (snap A)) : option (snap A) := find (sn_full A) l.
Definition snap_content (l : list (snap A)) (sn : snap A) : Prop :=
  exists f, last_full l = Some f /\
    holds (sn_mat A sn) (sn_rhs A sn) (sysm (sn_gmin A f) (sn_devs A sn)) (devs_r (sn_devs A sn)).
Fixpoint log_ok (l : list (snap A)) : Prop :=
  match l with [] => True | sn :: l' => snap_content l sn /\ log_ok l' end.
Definition Cc (x : sim A) : Prop :=
  exists f, last_full (s_log A x) = Some f /\ content (sn_gmin A f) (s_devs A x) x.
Definition Cb (x : sim A) : Prop := s_inc A x = tsYES -> Cc x.
Definition Ci (x : sim A) : Prop := s_inc A x = tsYES \/ (s_inc A x = tsNO /\ s_iter A x <> 0) -> Cc x.
(* observations made by a run *)
Definition newlog (g : T) (x y : sim A) (new : list (snap A)) : Prop :=
  s_log A y = new ++ s_log A x /\ Forall (fun sn => sn_gmin A sn = g) new.

Lemma iteration_val : forall o st x cc y cc1, quiet o -> W A D0 mp n x -> step_ok A n st -> Yi A x -> 0 <= s_iter A x ->
  Ci x -> log_ok (s_log A x) -> iteration A o st x cc = Some (y, cc1) ->
  Cb y /\ (s_conv A y = false -> Cc y) /\ log_ok (s_log A y) /\
  exists new, newlog (o_gmin A o) x y new /\
    (is_inc (s_inc A (set_flags A o x)) = false -> Forall (fun sn => sn_full A sn = true) new) /\
    (s_conv A y = false -> new <> []).
Proof.
  intros o st x cc y cc1 Hq HW Hst HY Hit HC HLg E. unfold iteration in E.
  destruct (set_flags_frame A o x) as (m & Ef).
  set (x1 := set_flags A o x) in *. set (full := negb (is_inc (s_inc A x1))) in *.
  assert (W1 : W A D0 mp n x1). { rewrite Ef. destruct HW. constructor; cbn; auto. }
  assert (Y1 : is_inc (s_inc A x1) = true -> Y A x1).
  { intros Hi. apply set_flags_inc in Hi. destruct Hi as (Hi & _). specialize (HY Hi). now rewrite Ef. }
  destruct (clear_sys A D0 mp n o x1 W1 Y1) as (x2 & E2 & W2 & Y2 & (M2 & r2 & Eq2) & Ex2).
  rewrite E2 in E. cbn [bind] in E.
  (* after clear_arrays *)
  assert (HC2 : exists g, (if is_inc (s_inc A x2) then content g (s_devs A x2) x2 else content g [] x2) /\
     (if full then g = o_gmin A o else exists f, last_full (s_log A x) = Some f /\ g = sn_gmin A f)).
  { assert (Ei : s_inc A x2 = s_inc A x1) by now rewrite Eq2. rewrite Ei. unfold full.
    destruct (is_inc (s_inc A x1)) eqn:Bi; cbn [negb].
    - rewrite (Ex2 eq_refl). apply set_flags_inc in Bi. destruct Bi as (Bi & _). destruct (HC Bi) as (f & Hf & Hc).
      exists (sn_gmin A f). split; [rewrite Ef; exact Hc|]. now exists f.
    - exists (o_gmin A o). split; [|reflexivity]. apply clear_val with x1; auto. }
  destruct HC2 as (g & HC2 & Hg).
  set (x3 := with_iters A _ _ _ x2) in E.
  assert (W3 : W A D0 mp n x3). { destruct W2. constructor; cbn; auto. }
  destruct (events_sys A D0 mp n (st_events A st) x3 W3 Hst) as (x4 & E4 & W4 & M4 & C4 & I4 & L4 & R4).
  destruct (events_val (st_events A st) x3 x4 E4) as (_ & _ & Dm & Dr).
  rewrite E4 in E. cbn [bind] in E.
  set (cc1' := if st_conv A st then _ else 0) in E. set (conv := if cc1' <=? o_itermin A o then false else _) in E.
  set (x5 := with_flags A _ _ conv x4) in E.
  assert (W5 : W A D0 mp n x5). { destruct W4. constructor; cbn; auto. }
  assert (L5 : s_log A x5 = s_log A x). { change (s_log A x5) with (s_log A x4). rewrite L4. unfold x3. cbn. rewrite Eq2, Ef. reflexivity. }
  assert (I5 : is_inc (s_inc A x5) = negb full).
  { change (s_inc A x5) with (s_inc A x4). rewrite I4. change (s_inc A x3) with (s_inc A x2). rewrite Eq2. cbn.
    unfold full. now rewrite negb_involutive. }
  assert (C5 : if is_inc (s_inc A x5) then content g (s_devs A x5) x5 else content g [] x5).
  { rewrite I5. assert (I2 : is_inc (s_inc A x2) = negb full). { rewrite Eq2. cbn. unfold full. now rewrite negb_involutive. }
    rewrite I2 in HC2. destruct full; cbn [negb] in HC2 |- *; intros r Hr; destruct (HC2 r Hr) as (P1 & P2);
      change (s_rhs A x5) with (s_rhs A x4); change (s_mat A x5) with (s_mat A x4); change (s_devs A x5) with (s_devs A x4);
      rewrite R4, M4; (split; [|intros c Hc]); change (s_rhs A x3) with (s_rhs A x2); change (s_mat A x3) with (s_mat A x2).
    - exact P1.
    - now apply P2.
    - rewrite P1. now rewrite Dr.
    - rewrite (P2 c Hc). unfold sysm. now rewrite Dm. }
  clearbody conv. clearbody cc1'.
  destruct (negb conv || negb (o_fbbypass A o) || o_lt99 A o (s_damp A x5)) eqn:Hbr.
  - set (x6 := set_damp A o x5) in E.
    assert (E6 : exists dm, x6 = with_damp A dm x5).
    { unfold x6, set_damp. clearbody x5.
      repeat match goal with |- context [if ?b then _ else _] => destruct b end; eexists; reflexivity. }
    destruct E6 as (dm & E6).
    assert (W6 : W A D0 mp n x6). { rewrite E6. destruct W5. constructor; cbn; auto. }
    destruct (load_matrix_sys A D0 mp n HD0 o x6 W6) as (x7 & E7 & W7 & Y7 & M7 & r7 & ds7 & Eq7).
    rewrite E7 in E. cbn [bind] in E.
    assert (C7 : content g (s_devs A x7) x7).
    { apply load_matrix_val with o x6; auto. rewrite E6. exact C5. }
    unfold solve_equations in E.
    destruct (lu_decomp A (o_lubypass A o && is_inc (s_inc A x7)) (s_mat A x7)) as [M8|] eqn:E8; [|discriminate]. cbn [bind] in E.
    destruct (fbsub3 A (lu M8) (s_rhs A x7) (s_v0 A x7)) as [v8|] eqn:E9; [|discriminate]. cbn [bind] in E.
    injection E as Ey Ecc.
    assert (A8 : aa M8 = aa (s_mat A x7)).
    { destruct (lu_decomp_spec A (o_lubypass A o && is_inc (s_inc A x7)) (s_mat A x7)) as (M8' & E8' & A8 & _).
      - apply W7.
      - intros Hb. apply andb_prop in Hb. destruct Hb as (_ & Hb). apply Y7. rewrite E6.
        assert (Hb' : is_inc (s_inc A x5) = true). { rewrite Eq7, E6 in Hb. exact Hb. }
        change (Y A x5). unfold Y. change (s_mat A x5) with (s_mat A x4). rewrite M4. apply Y2.
        rewrite <- Hb'. change (s_inc A x5) with (s_inc A x4). rewrite I4. reflexivity.
      - congruence. }
    assert (L7 : s_log A x7 = s_log A x). { rewrite Eq7, E6. exact L5. }
    set (sn := mksnap A full (o_gmin A o) (s_mat A x7) (s_rhs A x7) (s_devs A x7) (lu M8) v8) in Ey.
    assert (Ly : s_log A y = sn :: s_log A x). { rewrite <- Ey. cbn. now rewrite L7. }
    assert (Hf : exists f, last_full (sn :: s_log A x) = Some f /\ sn_gmin A f = g).
    { unfold last_full. cbn [find]. change (sn_full A sn) with full. destruct full.
      - exists sn. split; [reflexivity|]. now rewrite Hg.
      - destruct Hg as (f & Hf & ->). exists f. now split. }
    destruct Hf as (f & Hf & Hfg).
    assert (Hcc : Cc y).
    { exists f. rewrite Ly. split; [assumption|]. rewrite Hfg. intros r Hr. destruct (C7 r Hr) as (P1 & P2).
      rewrite <- Ey. cbn. rewrite A8. now split. }
    split; [intros _; assumption|]. split; [intros _; assumption|]. rewrite Ly. cbn [log_ok]. split.
    + split; [|assumption]. exists f. split; [assumption|]. rewrite Hfg. exact C7.
    + exists [sn]. split; [split; [exact Ly|now repeat constructor]|]. split; [|discriminate].
      intros Hi. constructor; [|constructor]. change (sn_full A sn) with full. unfold full. now rewrite Hi.
  - apply orb_false_elim in Hbr. destruct Hbr as (Hbr & _). apply orb_false_elim in Hbr. destruct Hbr as (Hc & _).
    injection E as Ey Ecc. rewrite <- Ey.
    assert (Ec : conv = true) by now destruct conv.
    split.
    + intros Hy. change (s_inc A (with_loadq A [] x5)) with (s_inc A x5) in Hy. rewrite Hy in C5, I5. cbn [is_inc] in C5, I5.
      destruct full; [discriminate|]. destruct Hg as (f & Hf & ->). exists f. split; [change (last_full (s_log A x5) = Some f); now rewrite L5|]. exact C5.
    + split; [cbn; intros; congruence|]. split; [change (log_ok (s_log A x5)); now rewrite L5|]. exists [].
      split; [split; [exact L5|constructor]|]. split; [constructor|]. cbn. intros; congruence.
Qed.

(* set_flags clears on the first pass unless the mode was YES *)
Lemma set_flags_first : forall o x, s_inc A x <> tsYES -> s_iter A x = 0 -> is_inc (s_inc A (set_flags A o x)) = false.
Proof.
  intros o x H1 H2. destruct (is_inc (s_inc A (set_flags A o x))) eqn:B; [|reflexivity].
  apply set_flags_inc in B. destruct B as ([B|(_ & B)] & _); congruence.
Qed.

Definition oldest_full (new : list (snap A)) : Prop := exists pre sn, new = pre ++ [sn] /\ sn_full A sn = true.

Lemma loop_val : forall o itl w fuel x cc y, quiet o -> world_ok A n w -> W A D0 mp n x -> Yi A x -> 0 <= s_iter A x ->
  Ci x -> log_ok (s_log A x) -> loop A fuel o itl w x cc = Some y ->
  Cb y /\ log_ok (s_log A y) /\ exists new, newlog (o_gmin A o) x y new /\
    (is_inc (s_inc A (set_flags A o x)) = false -> new <> [] -> oldest_full new).
Proof.
  intros o itl w. induction fuel as [|fu IH]; intros x cc y Hq Hw HW HY Hit HC HL E; [discriminate|]. cbn [loop] in E.
  destruct (iteration_sys A D0 mp n HD0 o (w_step A w (s_total A x)) x cc HW (proj2 (Hw _)) HY Hit)
    as (z & cc1 & Ez & Wz & Yz & Yc & I1 & P1 & T1 & Q1).
  destruct (iteration_val o (w_step A w (s_total A x)) x cc z cc1 Hq HW (proj2 (Hw _)) HY Hit HC HL Ez)
    as (Cz & Czc & Lz & new & (Nz & Gz) & Fz & Ne).
  rewrite Ez in E. cbn [bind] in E.
  assert (Hfin : z = y -> Cb y /\ log_ok (s_log A y) /\ exists new, newlog (o_gmin A o) x y new /\
    (is_inc (s_inc A (set_flags A o x)) = false -> new <> [] -> oldest_full new)).
  { intros <-. split; [assumption|]. split; [assumption|]. exists new. split; [now split|]. intros Hi Hne.
    destruct (exists_last Hne) as (pre & sn & ->). exists pre, sn. split; [reflexivity|].
    specialize (Fz Hi). rewrite Forall_forall in Fz. apply Fz. apply in_or_app. right. now left. }
  destruct (s_conv A z) eqn:Ec; cbn [negb andb] in E; [injection E as E; auto|].
  destruct (itl <? s_iter A z); cbn [negb] in E; [injection E as E; auto|].
  destruct (IH z cc1 y Hq Hw Wz) as (Cy & Ly & new2 & (Ny & Gy) & _); auto.
  { intros _. now apply Yc. } { lia. } { intros _. now apply Czc. }
  split; [assumption|]. split; [assumption|]. exists (new2 ++ new). split.
  - split; [rewrite Ny, Nz; now rewrite app_assoc|]. apply Forall_app. now split.
  - intros Hi _. assert (Hne : new <> []) by now apply Ne. destruct (exists_last Hne) as (pre & sn & ->).
    exists (new2 ++ pre), sn. split; [now rewrite app_assoc|]. specialize (Fz Hi). rewrite Forall_forall in Fz. apply Fz.
    apply in_or_app. right. now left.
Qed.

Lemma aevents_val : forall o l x y, foldM (do_aevent A o) l x = Some y -> W A D0 mp n x -> Forall (aev_ok A n) l -> Yb A x -> Cb x -> Cb y.
Proof.
  intros o. induction l as [|e l IH]; intros x y E HW Hl HY HC; cbn [foldM] in E.
  - now injection E as <-.
  - inversion Hl as [|? ? He Hl']; subst.
    destruct (do_aevent A o e x) as [z|] eqn:Ez; [|discriminate]. cbn [bind] in E.
    destruct (aevents_sys A D0 mp n HD0 o [e] x HW) as (z' & Ez' & Wz & Yz & _ & Lz & _); [now constructor|assumption|].
    cbn [foldM] in Ez'. rewrite Ez in Ez'. cbn [bind] in Ez'. injection Ez' as <-.
    apply IH with z; auto. intros Hz. destruct e as [e|k mask]; cbn [do_aevent aev_ok] in *.
    + destruct (do_event_sys A D0 mp n e x HW He) as (z' & E' & _ & _ & _ & Iz & _). assert (z' = z) by congruence. subst z'.
      destruct (do_event_val e x z Ez) as (A1 & A2 & A3 & A4).
      assert (Hx : s_inc A x = tsYES).
      { destruct Iz as [Iz|Iz]; [congruence|]. exfalso. apply (mark_not_yes (s_inc A x)). congruence. }
      destruct (HC Hx) as (f & Hf & Hc). exists f. rewrite Lz. split; [assumption|]. intros r Hr. destruct (Hc r Hr) as (P1 & P2).
      rewrite A1, A2. split; [now rewrite A4|]. intros c Hc'. rewrite (P2 c Hc'). unfold sysm. now rewrite A3.
    + destruct (unload_sys A D0 mp n HD0 o k mask x HW He) as (z' & E' & _ & Iz & _). assert (z' = z) by congruence. subst z'.
      exfalso. apply (mark_not_yes (s_inc A x)). congruence.
Qed.

Lemma solve_val : forall o itl w x y, quiet o -> world_ok A n w -> W A D0 mp n x -> Yb A x -> s_loadq A x = [] ->
  Cb x -> log_ok (s_log A x) -> solve A o itl w x = Some y ->
  Cb y /\ log_ok (s_log A y) /\ exists new, newlog (o_gmin A o) x y new /\
    (s_inc A x <> tsYES \/ o_incmode A o = false -> new <> [] -> oldest_full new).
Proof.
  intros o itl w x y Hq Hw HW HY Hlq HC HL E. unfold solve in E. rewrite Hlq in E.
  set (x1 := with_iters A _ _ _ _) in E.
  assert (W1 : W A D0 mp n x1). { destruct HW. constructor; cbn; auto. }
  destruct (aevents_sys A D0 mp n HD0 o (w_adv A w (s_total A x1)) x1 W1 (proj1 (Hw _)) HY) as (x2 & E2 & W2 & Y2 & C2 & L2 & N2).
  rewrite E2 in E. cbn [bind] in E.
  assert (Cb2 : Cb x2). { apply aevents_val with o (w_adv A w (s_total A x1)) x1; auto. apply Hw. }
  destruct C2 as (C2a & C2b & C2c). cbn in C2a, C2b, C2c.
  destruct (loop_val o itl w (Z.to_nat (itl + 2)) (with_damp A (o_dampmax A o) x2) 0 y Hq Hw) as (Cy & Ly & new & (Ny & Gy) & Fy); auto.
  - destruct W2. constructor; cbn; auto.
  - intros [H|(H & H')]; [apply Y2, H|]. cbn in H'. congruence.
  - cbn. lia.
  - intros [H|(H & H')]; [apply Cb2, H|]. cbn in H'. congruence.
  - cbn. rewrite L2. exact HL.
  - split; [assumption|]. split; [assumption|]. exists new. split; [split; [|assumption]|].
    + rewrite Ny. cbn. rewrite L2. reflexivity.
    + intros Hi. apply Fy. destruct Hi as [Hi|Hi].
      * apply set_flags_first; [cbn; now apply N2|cbn; lia].
      * unfold set_flags. now rewrite Hi.
Qed.

Lemma homotopy_val : forall cs o itl w fuel g x y, quiet o -> world_ok A n w -> W A D0 mp n x -> Yb A x -> s_loadq A x = [] ->
  0 <= itl -> Cb x -> log_ok (s_log A x) -> homotopy A fuel cs o itl w g x = Some y ->
  Cb y /\ log_ok (s_log A y).
Proof.
  intros cs o itl w. induction fuel as [|fu IH]; intros g x y Hq Hw HW HY Hlq Hi HC HL E; cbn [homotopy] in E.
  - destruct (_ && _); [discriminate|]. injection E as <-. now split.
  - destruct (_ && _); [|injection E as <-; now split].
    assert (W1 : W A D0 mp n (with_inc A tsNO x)). { destruct HW. constructor; cbn; auto. }
    assert (Y1 : Yb A (with_inc A tsNO x)) by (intros X; discriminate X).
    destruct (solve_sys A D0 mp n HD0 (with_gmin A g 0 o) itl w (with_inc A tsNO x) Hw W1 Y1 Hlq Hi) as (z & Ez & Wz & Yz & Qz & _).
    destruct (solve_val (with_gmin A g 0 o) itl w (with_inc A tsNO x) z) as (Cz & Lz & _); auto.
    { intros X. discriminate X. }
    rewrite Ez in E. cbn [bind] in E.
    apply (IH _ z y Hq Hw Wz Yz Qz Hi Cz Lz E).
Qed.

Lemma cmd_val : forall w c x y, world_ok A n w -> cmd_ok A n c ->
  match c with CSolve _ o _ => quiet o | CHomotopy _ _ o _ => quiet o | _ => True end ->
  W A D0 mp n x -> Yb A x -> s_loadq A x = [] -> Cb x -> log_ok (s_log A x) -> do_cmd A w c x = Some y ->
  Cb y /\ log_ok (s_log A y).
Proof.
  intros w c x y Hw Hc Hq HW HY Hlq HC HL E. destruct c as [o itl|cs o itl| |o es p]; cbn [do_cmd cmd_ok] in *.
  - destruct (solve_val o itl w x y Hq Hw HW HY Hlq HC HL E) as (Cy & Ly & _). now split.
  - unfold solve_with_homotopy in E.
    destruct (solve_sys A D0 mp n HD0 o itl w x Hw HW HY Hlq Hc) as (z & Ez & Wz & Yz & Qz & _).
    destruct (solve_val o itl w x z Hq Hw HW HY Hlq HC HL Ez) as (Cz & Lz & _).
    rewrite Ez in E. cbn [bind] in E. destruct (_ && _); [|injection E as <-; now split].
    destruct (homotopy_sys A D0 mp n HD0 cs o itl w (Z.to_nat (o_sstep A o - s_print A z)) (c_one A cs) z Hw Wz Yz Qz Hc (le_n _))
      as (u & Eu & Wu & Yu & Qu).
    destruct (homotopy_val cs o itl w _ _ z u Hq Hw Wz Yz Qz Hc Cz Lz Eu) as (Cu & Lu).
    rewrite Eu in E. cbn [bind] in E. destruct (solve_val o itl w u y Hq Hw Wu Yu Qu Cu Lu E) as (Cy & Ly & _). now split.
  - injection E as <-. split; [intros X; discriminate X|exact HL].
  - destruct (aevents_sys A D0 mp n HD0 o es x HW Hc HY) as (z & Ez & Wz & Yz & _ & Lz & _).
    pose proof (aevents_val o es x z Ez HW Hc HY HC) as Cz. rewrite Ez in E. cbn [bind] in E. injection E as <-.
    split; [exact Cz|]. cbn. now rewrite Lz.
Qed.

Lemma cmds_val : forall w l x y, world_ok A n w -> Forall (cmd_ok A n) l ->
  Forall (fun c => match c with CSolve _ o _ => quiet o | CHomotopy _ _ o _ => quiet o | _ => True end) l ->
  W A D0 mp n x -> Yb A x -> s_loadq A x = [] -> Cb x -> log_ok (s_log A x) -> foldM (do_cmd A w) l x = Some y ->
  log_ok (s_log A y).
Proof.
  intros w. induction l as [|c l IH]; intros x y Hw Hl Hq HW HY Hlq HC HL E; cbn [foldM] in E; [now injection E as <-|].
  inversion Hl as [|? ? Hc Hl']; subst. inversion Hq as [|? ? Hqc Hq']; subst.
  destruct (do_cmd_sys A D0 mp n HD0 w c x Hw Hc HW HY Hlq) as (z & Ez & Wz & Yz & Qz).
  destruct (cmd_val w c x z Hw Hc Hqc HW HY Hlq HC HL Ez) as (Cz & Lz).
  rewrite Ez in E. cbn [bind] in E. now apply IH with z.
Qed.
End S.
