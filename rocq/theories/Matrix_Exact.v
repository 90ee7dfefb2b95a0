(* The matrix in exact arithmetic: stamping is a dense sum, L*U = A, substitutions solve. *)
Require Import ZArith List Lia Bool Field.
Require Import ZifyBool.
Require Import Verif.Loops Verif.FieldSums Verif.Matrix_Model Verif.Matrix_Layout Verif.Matrix_LU Verif.Matrix_Load.
Import ListNotations.
Local Open Scope Z_scope.

(* exact arithmetic: longer<T> is T itself *)
Definition exA (K : fld) : arith :=
  Build_arith (F K) (F K) (f0 K) (fadd K) (fsub K) (fmul K) (fdiv K) (fz K) (f0 K) (fadd K) (fsub K) (fun x => x).

Declare Scope fx_scope.
Delimit Scope fx_scope with fx.

Section Exact.
Variable K : fld.
Add Field Kf : (fth K).
Notation "0" := (f0 K) : fx_scope. Notation "1" := (f1 K) : fx_scope.
Infix "+" := (fadd K) : fx_scope. Infix "*" := (fmul K) : fx_scope. Infix "-" := (fsub K) : fx_scope.
Infix "/" := (fdiv K) : fx_scope.
Notation A := (exA K).
Notation data := (data A).
Notation mat := (mat A).
Notation fsum := (fsum K).

Lemma sub_eq : forall a b : F K, (a - b)%fx = f0 K -> a = b.
Proof. intros a b H. transitivity ((a - b) + b)%fx; [ring|]. rewrite H. ring. Qed.
Ltac kring :=
  try change (n0 A) with (f0 K); try change (nadd A) with (fadd K); try change (nsub A) with (fsub K);
  try change (nmul A) with (fmul K); try change (ndiv A) with (fdiv K);
  lazymatch goal with |- @eq _ ?a ?b => change (@eq (F K) a b) end; apply sub_eq; ring.

(* ---- stamping ---- *)
Definition a_val (x : act A) : F K := if a_sub A x then fopp K (a_v A x) else a_v A x.
Definition a_at (x : act A) (r c : Z) : F K :=
  if (a_r A x =? r) && (a_c A x =? c) then a_val x else f0 K.

Lemma ext_aput : forall (D : data) x r c, wf D -> env D (a_r A x) (a_c A x) ->
  ext (aput A D x) r c = (ext D r c + a_at x r c)%fx.
Proof.
  intros D x r c Hw He. unfold a_at.
  destruct ((a_r A x =? r) && (a_c A x =? c)) eqn:E.
  - assert (a_r A x = r) by lia. assert (a_c A x = c) by lia. subst r c.
    rewrite !ext_env by (assumption || now apply aput_env).
    unfold aput. rewrite ent_put. unfold a_val. destruct (a_sub A x); kring.
  - unfold ext. assert (Eb : env_b (aput A D x) r c = env_b D r c) by reflexivity. rewrite Eb.
    destruct (env_b D r c) eqn:B.
    + apply env_b_spec in B. unfold aput. rewrite ent_put_other; try assumption.
      * kring.
      * intros Q; inversion Q; lia.
    + kring.
Qed.

Lemma ext_fold : forall l (D : data) r c, wf D -> (forall a, In a l -> env D (a_r A a) (a_c A a)) ->
  ext (fold_left (aput A) l D) r c = (ext D r c + lsum K (map (fun a => a_at a r c) l))%fx.
Proof.
  induction l as [|x l IH]; intros D r c Hw Hin.
  - cbn [fold_left map]. change (lsum K []) with (f0 K). kring.
  - cbn [fold_left map]. rewrite IH.
    + rewrite ext_aput by (try assumption; apply Hin; now left).
      change (lsum K (a_at x r c :: map (fun a => a_at a r c) l)) with (a_at x r c + lsum K (map (fun a => a_at a r c) l))%fx.
      kring.
    + now apply aput_wf.
    + intros a Ha. apply aput_env. apply Hin. now right.
Qed.

(* ---- L and U as dense matrices ---- *)
Definition Lf (D : data) (r k : Z) : F K := if k <=? r then ext D r k else f0 K.
Definition Uf (D : data) (k c : Z) : F K := if k <? c then ext D k c else if k =? c then f1 K else f0 K.
(* (L*U)(r,c) *)
Definition LU (D : data) (r c : Z) : F K := fsum 1 (size D + 1) (fun k => (Lf D r k * Uf D k c)%fx).
(* the products to the left/above of (r,c) *)
Definition part (D : data) (r c : Z) : F K := fsum 1 (Z.min r c) (fun k => (Lf D r k * Uf D k c)%fx).

Lemma LU_split : forall (D : data) r c, 1 <= r <= size D -> 1 <= c <= size D ->
  LU D r c = (part D r c + Lf D r (Z.min r c) * Uf D (Z.min r c) c)%fx.
Proof.
  intros D r c Hr Hc. unfold LU, part.
  rewrite (fsum_split K 1 (Z.min r c) (size D + 1)) by lia.
  rewrite (fsum_cons K (Z.min r c)) by lia.
  rewrite (fsum_zero K (Z.min r c + 1)).
  - kring.
  - intros k Hk. unfold Lf, Uf. destruct (Z.leb_spec k r).
    + replace (k <? c) with false by lia. replace (k =? c) with false by lia. kring.
    + kring.
Qed.

Lemma wdot_part : forall (D : data) r c, wf D -> env D r c ->
  wdot A D r c (Z.max (low D r) (low D c)) (Z.min r c) = part D r c.
Proof.
  intros D r c Hw He. destruct He as (Hr & Hc & He). destruct Hw as (Hs & H0 & Hl).
  assert (Hw : wf D) by (split; [|split]; assumption).
  pose proof (Hl r Hr). pose proof (Hl c Hc).
  assert (HH : low D r <= Z.min r c /\ low D c <= Z.min r c).
  { destruct (Z_le_gt_dec r c).
    - rewrite Z.max_r, Z.min_l in * by lia. lia.
    - rewrite Z.max_l, Z.min_r in * by lia. lia. }
  unfold part. rewrite (fsum_split K 1 (Z.max (low D r) (low D c))) by lia.
  rewrite (fsum_zero K 1 (Z.max (low D r) (low D c))).
  - unfold wdot. change (wacc A) with (fadd K). change (nmul A) with (fmul K). change (w0 A) with (f0 K).
    match goal with |- ?x = (_ + ?y)%fx => assert (E : x = y) end.
    { unfold fsum. apply foldZ_ext. intros k t Hk. f_equal. unfold Lf, Uf.
      replace (k <=? r) with true by lia. replace (k <? c) with true by lia.
      rewrite !ext_env; [reflexivity| |].
      - repeat split; try lia. rewrite Z.max_r, Z.min_l by lia. lia.
      - repeat split; try lia. rewrite Z.max_l, Z.min_r by lia. lia. }
    rewrite E. kring.
  - intros k Hk. unfold Lf, Uf. replace (k <=? r) with true by lia. replace (k <? c) with true by lia.
    assert (C : k < low D r \/ k < low D c) by lia. destruct C as [C|C].
    + rewrite (ext_out _ D r k); [kring|]. intros (_ & _ & X). rewrite Z.max_l, Z.min_r in X by lia. lia.
    + rewrite (ext_out _ D k c); [kring|]. intros (_ & _ & X). rewrite Z.max_r, Z.min_l in X by lia. lia.
Qed.

Lemma red_part : forall (src D : data) r c, wf D -> env D r c ->
  red A src D r c = (ent src r c - part D r c)%fx.
Proof.
  intros src D r c Hw He. unfold red.
  rewrite wdot_part by assumption. destruct (Z.eqb_spec (Z.min r c) (low D (Z.max r c))) as [E|E]; [|reflexivity].
  rewrite <- wdot_part by assumption. unfold wdot. rewrite foldZ_empty.
  - change (w0 A) with (f0 K). kring.
  - destruct (Z_le_gt_dec r c).
    + rewrite Z.max_r, Z.min_l in * by lia. lia.
    + rewrite Z.max_l, Z.min_r in * by lia. lia.
Qed.

Lemma part_out : forall (D : data) r c, wf D -> 1 <= r <= size D -> 1 <= c <= size D -> ~ env D r c -> part D r c = f0 K.
Proof.
  intros D r c Hw Hr Hc He. unfold part. apply fsum_zero. intros k Hk.
  assert (HH : Z.min r c < low D (Z.max r c)).
  { destruct (Z_lt_le_dec (Z.min r c) (low D (Z.max r c))); [assumption|]. exfalso. apply He. repeat split; lia. }
  unfold Lf, Uf. replace (k <=? r) with true by lia. replace (k <? c) with true by lia.
  destruct (Z_le_gt_dec r c).
  - rewrite Z.max_r, Z.min_l in * by lia.
    rewrite (ext_out _ D k c); [kring|]. intros (_ & _ & X). rewrite Z.max_r, Z.min_l in X by lia. lia.
  - rewrite Z.max_l, Z.min_r in * by lia.
    rewrite (ext_out _ D r k); [kring|]. intros (_ & _ & X). rewrite Z.max_l, Z.min_r in X by lia. lia.
Qed.

(* the eliminated diagonal entry is zero *)
Definition singular_at (src D : data) (m : Z) : Prop := (ext src m m - part D m m)%fx = f0 K.

Lemma piv_nonzero : forall src mp (D : data), wf D -> mp <> f0 K -> LUrec A src mp D ->
  forall m, 1 <= m <= size D -> ent D m m <> f0 K.
Proof.
  intros src mp D Hw Hmp HL m Hm. rewrite (HL m m) by now apply env_diag.
  unfold val. replace (m <? m) with false by lia. unfold piv.
  destruct (nzero A (red A src D m m)) eqn:E; [assumption|]. now apply fz_false.
Qed.

Lemma LU_eq : forall src mp (D : data), wf D -> shape D src -> mp <> f0 K -> LUrec A src mp D ->
  forall r c, 1 <= r <= size D -> 1 <= c <= size D ->
    (r <> c -> LU D r c = ext src r c) /\
    (r = c -> (singular_at src D r -> LU D r r = (ext src r r + mp)%fx) /\
              (~ singular_at src D r -> LU D r r = ext src r r)).
Proof.
  intros src mp D Hw Hsh Hmp HL r c Hr Hc.
  assert (Hdec : env D r c \/ ~ env D r c).
  { destruct (env_b D r c) eqn:E; [left; now apply env_b_spec|right; intros H; apply env_b_spec in H; congruence]. }
  assert (Hsrc : env D r c -> ext src r c = ent src r c).
  { intros He. apply ext_env. now apply (shape_env _ D). }
  split.
  - intros N. rewrite LU_split by assumption. destruct Hdec as [He|He].
    + rewrite Hsrc by assumption. pose proof (HL r c He) as E. unfold rec1, val in E.
      destruct (Z.ltb_spec r c) as [L|L].
      * rewrite Z.min_l by lia. unfold Lf, Uf. replace (r <=? r) with true by lia. replace (r <? c) with true by lia.
        rewrite !ext_env by (assumption || now apply env_diag). rewrite E. change (ndiv A) with (fdiv K).
        rewrite red_part by assumption.
        rewrite fmul_inv by (now apply piv_nonzero with src mp). kring.
      * assert (L' : c < r) by lia. replace (c <? r) with true in E by lia.
        rewrite Z.min_r by lia. unfold Lf, Uf. replace (c <=? r) with true by lia. replace (c <? c) with false by lia.
        replace (c =? c) with true by lia. rewrite ext_env by assumption. rewrite E, red_part by assumption. kring.
    + rewrite (part_out D r c) by assumption.
      assert (Hs : ext src r c = f0 K). { apply ext_out. intros H. apply He. now apply (shape_env _ D src). }
      rewrite Hs. unfold Lf, Uf. destruct (Z_le_gt_dec r c) as [L|L].
      * rewrite Z.min_l by lia. replace (r <? c) with true by lia. rewrite (ext_out _ D r c He). kring.
      * rewrite Z.min_r by lia. replace (c <=? r) with true by lia. rewrite (ext_out _ D r c He). kring.
  - intros <-. rewrite LU_split by assumption. rewrite Z.min_id. pose proof (env_diag A D r Hw Hr) as He.
    pose proof (HL r r He) as E. unfold rec1, val in E. replace (r <? r) with false in E by lia.
    rewrite red_part in E by assumption. rewrite <- Hsrc in E by assumption.
    unfold Lf, Uf. replace (r <=? r) with true by lia. replace (r <? r) with false by lia.
    replace (r =? r) with true by lia. rewrite ext_env by assumption.
    unfold piv in E. change (nzero A) with (fz K) in E. unfold singular_at.
    destruct (fz K (ext src r r - part D r r)%fx) eqn:Z.
    + apply fz_ok in Z. split.
      * intros _. rewrite E. assert (X : ext src r r = part D r r).
        { replace (ext src r r) with ((ext src r r - part D r r) + part D r r)%fx by kring. rewrite Z. kring. }
        rewrite X. kring.
      * intros H. contradiction.
    + apply fz_false in Z. split; [intros; contradiction|]. intros _. rewrite E.
      kring.
Qed.

(* ---- substitutions ---- *)
Lemma vget_ok : forall n (v : Z -> F K) i, 0 <= i <= n -> vget A n v i = Some (v i).
Proof. intros. unfold vget. replace ((0 <=? i) && (i <=? n)) with true by lia. reflexivity. Qed.
Lemma vset_ok : forall n (v : Z -> F K) i x, 0 <= i <= n -> vset A n v i x = Some (upd v i x).
Proof. intros. unfold vset. replace ((0 <=? i) && (i <=? n)) with true by lia. reflexivity. Qed.

Lemma low_range : forall (D : data) i, wf D -> 1 <= i <= size D -> 1 <= low D i <= i.
Proof. intros D i (_ & _ & H) Hi. now apply H. Qed.

(* subtracting a run of products into one element *)
Lemma fwd_row_spec : forall (D : data) from ii v, wf D -> 1 <= ii <= size D -> low D ii <= from <= ii ->
  exists w, fwd_row A D from ii v = Some w /\ (forall k, k <> ii -> w k = v k) /\
    w ii = (v ii - fsum from ii (fun k => (ext D ii k * v k)%fx))%fx.
Proof.
  intros D from ii v Hw Hi Hf. pose proof (low_range D ii Hw Hi). unfold fwd_row.
  destruct (for_up_ind (Z -> F K) (fun jj w => (forall k, k <> ii -> w k = v k) /\
      w ii = (v ii - fsum from jj (fun k => (ext D ii k * v k)%fx))%fx)
    (fun jj v' =>
    let* x := vget A (size D) v' ii in
    let* a := load_ A D (addr_l A D ii jj) in
    let* y := vget A (size D) v' jj in
    vset A (size D) v' ii (nsub A x (nmul A a y))) from ii v) as (w & E & O & V).
  - lia.
  - split; [reflexivity|]. rewrite fsum_empty by lia. kring.
  - intros jj w Hj (O & V). rewrite !vget_ok by lia.
    assert (He : env D ii jj) by (apply env_l; try assumption; lia).
    rewrite rd_l by (assumption || lia). cbn [bind]. rewrite vset_ok by lia.
    eexists. split; [reflexivity|]. split.
    + intros k Hk. rewrite upd_other by assumption. now apply O.
    + rewrite upd_same. rewrite fsum_snoc by lia. cbn [nsub nmul exA]. rewrite (O jj) by lia. rewrite V.
      rewrite ext_env by assumption. kring.
  - exists w. now repeat split.
Qed.

Lemma div_row_spec : forall (D : data) ii v, wf D -> 1 <= ii <= size D ->
  div_row A D ii v = Some (upd v ii (v ii / ext D ii ii)%fx).
Proof.
  intros D ii v Hw Hi. unfold div_row. rewrite vget_ok by lia. cbn [bind].
  rewrite rd_d by assumption. cbn [bind]. rewrite vset_ok by lia.
  rewrite ext_env by now apply env_diag. reflexivity.
Qed.

Definition diag_ok (D : data) : Prop := forall m, 1 <= m <= size D -> ext D m m <> f0 K.

Lemma sum_below_low : forall (D : data) i from (y : Z -> F K), wf D -> 1 <= i <= size D -> low D i <= from <= i ->
  (forall k, low D i <= k < from -> y k = f0 K) ->
  fsum 1 i (fun k => (Lf D i k * y k)%fx) = fsum from i (fun k => (ext D i k * y k)%fx).
Proof.
  intros D i from y Hw Hi Hf Hz. pose proof (low_range D i Hw Hi).
  rewrite (fsum_split K 1 from) by lia. rewrite (fsum_zero K 1 from).
  - rewrite (fsum_ext K from i _ (fun k => (ext D i k * y k)%fx)); [kring|].
    intros k Hk. unfold Lf. now replace (k <=? i) with true by lia.
  - intros k Hk. unfold Lf. replace (k <=? i) with true by lia.
    destruct (Z_lt_le_dec k (low D i)) as [L|L].
    + rewrite ext_out; [kring|]. intros (_ & _ & X). rewrite Z.max_l, Z.min_r in X by lia. lia.
    + rewrite Hz by lia. kring.
Qed.

(* the row equation of the forward substitution *)
Definition fwd_eq (D : data) (b y : Z -> F K) (i : Z) : Prop :=
  fsum 1 (i + 1) (fun k => (Lf D i k * y k)%fx) = b i.

Lemma fwd_eq_ext : forall D b y y' i, (forall k, 1 <= k <= i -> y' k = y k) -> fwd_eq D b y i -> fwd_eq D b y' i.
Proof.
  intros D b y y' i H E. unfold fwd_eq in *. rewrite <- E. apply fsum_ext. intros k Hk. rewrite H by lia. reflexivity.
Qed.

Lemma fwd_row_eq : forall (D : data) from i b v, wf D -> diag_ok D -> 1 <= i <= size D -> low D i <= from <= i ->
  v i = b i -> (forall k, low D i <= k < from -> v k = f0 K) ->
  exists w, (let* w := fwd_row A D from i v in div_row A D i w) = Some w /\
    (forall k, k <> i -> w k = v k) /\ fwd_eq D b w i.
Proof.
  intros D from i b v Hw Hd Hi Hf Hb Hz.
  destruct (fwd_row_spec D from i v Hw Hi Hf) as (w & E & O & V).
  rewrite E. cbn [bind]. rewrite div_row_spec by assumption. eexists. split; [reflexivity|].
  split; [intros k Hk; rewrite upd_other by assumption; now apply O|].
  unfold fwd_eq. rewrite fsum_snoc by lia. rewrite upd_same.
  rewrite (fsum_ext K 1 i _ (fun k => (Lf D i k * v k)%fx)).
  - rewrite (sum_below_low D i from v) by assumption. unfold Lf. replace (i <=? i) with true by lia.
    rewrite fmul_inv by now apply Hd. rewrite V, Hb. kring.
  - intros k Hk. rewrite upd_other by lia. now rewrite O by lia.
Qed.

Lemma back_sub_spec : forall (D : data) y, wf D ->
  exists x, back_sub A D y = Some x /\ x 0 = y 0 /\
    forall i, 1 <= i <= size D -> (x i + fsum (i + 1) (size D + 1) (fun k => (ext D i k * x k)%fx))%fx = y i.
Proof.
  intros D y Hw. pose proof (proj1 Hw) as Hs. unfold back_sub.
  destruct (Z.eq_dec (size D) 0) as [E0|N0].
  { rewrite E0. rewrite for_down_empty by lia. exists y. split; [reflexivity|]. split; [reflexivity|]. intros; lia. }
  destruct (for_down_ind (Z -> F K) (fun j v => v 0 = y 0 /\ forall i, 1 <= i <= size D ->
      (v i + fsum (Z.max i j + 1) (size D + 1) (fun k => (ext D i k * v k)%fx))%fx = y i)
    (fun jj v' =>
    for_up (low D jj) jj (fun ii v'' =>
      let* x := vget A (size D) v'' ii in
      let* a := load_ A D (addr_u A D ii jj) in
      let* y := vget A (size D) v'' jj in
      vset A (size D) v'' ii (nsub A x (nmul A a y))) v') (size D) 1 y) as (x & E & X0 & HX).
  - lia.
  - split; [reflexivity|]. intros i Hi. rewrite fsum_empty by lia. kring.
  - intros jj v Hj (V0 & HV). pose proof (low_range D jj Hw ltac:(lia)) as Hl.
    destruct (for_up_ind (Z -> F K) (fun ii w => forall k, w k =
        if (low D jj <=? k) && (k <? ii) then (v k - ext D k jj * v jj)%fx else v k)
      (fun ii v'' =>
      let* x := vget A (size D) v'' ii in
      let* a := load_ A D (addr_u A D ii jj) in
      let* y := vget A (size D) v'' jj in
      vset A (size D) v'' ii (nsub A x (nmul A a y))) (low D jj) jj v) as (w & E & HW).
    + lia.
    + intros k. replace ((low D jj <=? k) && (k <? low D jj)) with false by lia. reflexivity.
    + intros ii w Hii HW. rewrite !vget_ok by lia.
      assert (He : env D ii jj) by (apply env_u; try assumption; lia).
      rewrite rd_u by (assumption || lia). cbn [bind]. rewrite vset_ok by lia.
      eexists. split; [reflexivity|]. intros k. unfold upd. destruct (Z.eqb_spec k ii) as [->|N].
      * replace ((low D jj <=? ii) && (ii <? ii + 1)) with true by lia.
        rewrite (HW ii), (HW jj).
        replace ((low D jj <=? ii) && (ii <? ii)) with false by lia.
        replace ((low D jj <=? jj) && (jj <? ii)) with false by lia.
        rewrite ext_env by assumption. reflexivity.
      * rewrite HW. replace ((low D jj <=? k) && (k <? ii + 1)) with ((low D jj <=? k) && (k <? ii)) by lia. reflexivity.
    + exists w. split; [assumption|]. split.
      { rewrite HW. replace ((low D jj <=? 0) && (0 <? jj)) with false by lia. assumption. }
      intros i Hi. specialize (HV i Hi).
      assert (Hhi : forall k, jj <= k -> w k = v k).
      { intros k Hk. rewrite HW. replace ((low D jj <=? k) && (k <? jj)) with false by lia. reflexivity. }
      destruct (Z_lt_le_dec i jj) as [L|L].
      * replace (Z.max i (jj - 1) + 1) with jj by lia. replace (Z.max i jj + 1) with (jj + 1) in HV by lia.
        rewrite (fsum_cons K jj) by lia. rewrite (Hhi jj) by lia.
        rewrite (fsum_ext K (jj + 1) (size D + 1) _ (fun k => (ext D i k * v k)%fx)) by (intros k Hk; now rewrite (Hhi k) by lia).
        rewrite <- HV. rewrite HW. destruct (Z.leb_spec (low D jj) i) as [Q|Q]; cbn [andb].
        -- replace (i <? jj) with true by lia. kring.
        -- rewrite (ext_out _ D i jj); [kring|]. intros (_ & _ & X). rewrite Z.max_r, Z.min_l in X by lia. lia.
      * replace (Z.max i (jj - 1)) with i by lia. replace (Z.max i jj) with i in HV by lia.
        rewrite Hhi by lia. rewrite <- HV. f_equal. apply fsum_ext. intros k Hk. now rewrite Hhi by lia.
  - exists x. split; [assumption|]. split; [assumption|]. intros i Hi. specialize (HX i Hi).
    now replace (Z.max i 1) with i in HX by lia.
Qed.

Lemma U_row : forall (D : data) x i, 1 <= i <= size D ->
  fsum 1 (size D + 1) (fun k => (Uf D i k * x k)%fx) = (x i + fsum (i + 1) (size D + 1) (fun k => (ext D i k * x k)%fx))%fx.
Proof.
  intros D x i Hi. rewrite (fsum_split K 1 i) by lia. rewrite (fsum_cons K i) by lia. rewrite (fsum_zero K 1 i).
  - rewrite (fsum_ext K (i + 1) (size D + 1) _ (fun k => (ext D i k * x k)%fx)).
    + unfold Uf. replace (i <? i) with false by lia. replace (i =? i) with true by lia. kring.
    + intros k Hk. unfold Uf. now replace (i <? k) with true by lia.
  - intros k Hk. unfold Uf. replace (i <? k) with false by lia. replace (i =? k) with false by lia. kring.
Qed.

Lemma L_row : forall (D : data) y i, 1 <= i <= size D ->
  fsum 1 (size D + 1) (fun k => (Lf D i k * y k)%fx) = fsum 1 (i + 1) (fun k => (Lf D i k * y k)%fx).
Proof.
  intros D y i Hi. rewrite (fsum_split K 1 (i + 1)) by lia. rewrite (fsum_zero K (i + 1)).
  - kring.
  - intros k Hk. unfold Lf. replace (k <=? i) with false by lia. kring.
Qed.

(* forward equations and back equations give the solution of (L*U) x = b *)
Lemma LU_solves : forall (D : data) b y x,
  (forall i, 1 <= i <= size D -> fwd_eq D b y i) ->
  (forall i, 1 <= i <= size D -> (x i + fsum (i + 1) (size D + 1) (fun k => (ext D i k * x k)%fx))%fx = y i) ->
  forall r, 1 <= r <= size D -> fsum 1 (size D + 1) (fun c => (LU D r c * x c)%fx) = b r.
Proof.
  intros D b y x Hf Hb r Hr. rewrite <- (Hf r Hr). rewrite <- L_row by assumption.
  rewrite (fsum_ext K 1 (size D + 1) (fun c => (LU D r c * x c)%fx)
            (fun c => fsum 1 (size D + 1) (fun k => (Lf D r k * (Uf D k c * x c))%fx))).
  - rewrite fsum_swap. apply fsum_ext. intros k Hk. rewrite fsum_scale. f_equal.
    rewrite U_row by lia. apply Hb. lia.
  - intros c Hc. unfold LU. rewrite <- fsum_scale_r. apply fsum_ext. intros; kring.
Qed.

Lemma fbsub1_solves : forall (D : data) b, wf D -> diag_ok D ->
  exists x, fbsub1 A D b = Some x /\ x 0 = b 0 /\
    forall r, 1 <= r <= size D -> fsum 1 (size D + 1) (fun c => (LU D r c * x c)%fx) = b r.
Proof.
  intros D b Hw Hd. unfold fbsub1. pose proof (proj1 Hw) as Hs.
  destruct (for_up_ind (Z -> F K) (fun ii v => (forall k, ii <= k \/ k <= 0 -> v k = b k) /\
      (forall i, 1 <= i < ii -> fwd_eq D b v i))
    (fun ii v' => let* w := fwd_row A D (low D ii) ii v' in div_row A D ii w) 1 (size D + 1) b) as (y & E & O & Hy).
  - lia.
  - split; [reflexivity|]. intros; lia.
  - intros ii v Hi (O & Hv).
    destruct (fwd_row_eq D (low D ii) ii b v) as (w & E & Ow & Ew); try assumption; try lia.
    + pose proof (low_range D ii Hw ltac:(lia)). lia.
    + apply O. lia.
    + exists w. split; [assumption|]. split.
      * intros k Hk. rewrite Ow by lia. apply O. lia.
      * intros i Hi'. destruct (Z.eq_dec i ii) as [->|N]; [assumption|].
        apply fwd_eq_ext with v; [|apply Hv; lia]. intros k Hk. apply Ow. lia.
  - match goal with |- context [bind ?x _] => replace x with (Some y) by (symmetry; exact E) end. cbn [bind].
    destruct (back_sub_spec D y Hw) as (x & Ex & X0 & HX). exists x. split; [assumption|]. split.
    { rewrite X0. apply O. lia. }
    apply LU_solves with y; [|assumption]. intros i Hi. apply Hy. lia.
Qed.

Lemma first_nz_spec : forall n i (b : Z -> F K), i <= first_nz A n i b <= i + Z.of_nat n /\
  forall k, i <= k < first_nz A n i b -> b k = f0 K.
Proof.
  induction n as [|n IH]; intros i b.
  - cbn [first_nz]. split; [lia|]. intros; lia.
  - cbn [first_nz]. destruct (nzero A (b i)) eqn:E.
    + destruct (IH (i + 1) b) as (B & Hb). split; [lia|]. intros k Hk.
      destruct (Z.eq_dec k i) as [->|N]; [now apply fz_ok|]. apply Hb. lia.
    + split; [lia|]. intros; lia.
Qed.

Lemma fbsub3_solves : forall (D : data) b c, wf D -> diag_ok D ->
  exists x, fbsub3 A D b c = Some x /\ x 0 = f0 K /\
    forall r, 1 <= r <= size D -> fsum 1 (size D + 1) (fun c => (LU D r c * x c)%fx) = b r.
Proof.
  intros D b c Hw Hd. unfold fbsub3. pose proof (proj1 Hw) as Hs.
  destruct (first_nz_spec (Z.to_nat (size D)) 1 b) as (Bn & Hn).
  set (nz := first_nz A (Z.to_nat (size D)) 1 b) in *.
  rewrite Z2Nat.id in Bn by lia.
  destruct (for_up_ind (Z -> F K) (fun ii v => forall k, 1 <= k < ii -> v k = f0 K)
    (fun ii c' => vset A (size D) c' ii (n0 A)) 1 nz c) as (c0 & E0 & H0).
  { lia. } { intros; lia. }
  { intros j v Hj Hv. rewrite vset_ok by lia. eexists. split; [reflexivity|]. intros k Hk.
    unfold upd. destruct (Z.eqb_spec k j); [reflexivity|]. apply Hv. lia. }
  match goal with |- context [bind ?x _] => replace x with (Some c0) by (symmetry; exact E0) end. cbn [bind].
  destruct (for_up_ind (Z -> F K) (fun ii v => (forall k, 1 <= k < nz -> v k = f0 K) /\
      (forall i, nz <= i < ii -> fwd_eq D b v i))
    (fun ii c' =>
      let* bi := vget A (size D) b ii in
      let* c2 := vset A (size D) c' ii bi in
      let* c3 := fwd_row A D (Z.max (low D ii) nz) ii c2 in
      div_row A D ii c3) nz (size D + 1) c0) as (y & E & O & Hy).
  - lia.
  - split; [assumption|]. intros; lia.
  - intros ii v Hi (O & Hv). rewrite vget_ok by lia. cbn [bind]. rewrite vset_ok by lia. cbn [bind].
    pose proof (low_range D ii Hw ltac:(lia)) as Hl.
    destruct (fwd_row_eq D (Z.max (low D ii) nz) ii b (upd v ii (b ii))) as (w & E & Ow & Ew); try assumption; try lia.
    + apply upd_same.
    + intros k Hk. rewrite upd_other by lia. apply O. lia.
    + exists w. split; [assumption|]. split.
      * intros k Hk. rewrite Ow by lia. rewrite upd_other by lia. now apply O.
      * intros i Hi'. destruct (Z.eq_dec i ii) as [->|N]; [assumption|].
        apply fwd_eq_ext with v; [|apply Hv; lia]. intros k Hk. rewrite Ow by lia. apply upd_other. lia.
  - match goal with |- context [bind ?x _] => replace x with (Some y) by (symmetry; exact E) end. cbn [bind].
    destruct (back_sub_spec D y Hw) as (x & Ex & X0 & HX). rewrite Ex. cbn [bind]. rewrite vset_ok by lia.
    eexists. split; [reflexivity|]. split; [apply upd_same|].
    intros r Hr. rewrite <- (LU_solves D b y x) with (r := r); [| |assumption|assumption].
    + apply fsum_ext. intros k Hk. now rewrite upd_other by lia.
    + intros i Hi. destruct (Z_lt_le_dec i nz) as [L|L]; [|apply Hy; lia].
      unfold fwd_eq. rewrite fsum_zero; [symmetry; apply Hn; lia|].
      intros k Hk. rewrite O by lia. kring.
Qed.

(* ---- transposed ---- *)
Lemma LUt_solves : forall (D : data) b y x,
  (forall i, 1 <= i <= size D -> (y i + fsum 1 i (fun k => (ext D k i * y k)%fx))%fx = b i) ->
  (forall i, 1 <= i <= size D -> (ext D i i * x i + fsum (i + 1) (size D + 1) (fun k => (ext D k i * x k)%fx))%fx = y i) ->
  forall c, 1 <= c <= size D -> fsum 1 (size D + 1) (fun r => (LU D r c * x r)%fx) = b c.
Proof.
  intros D b y x Hf Hb c Hc. rewrite <- (Hf c Hc).
  rewrite (fsum_ext K 1 (size D + 1) (fun r => (LU D r c * x r)%fx)
            (fun r => fsum 1 (size D + 1) (fun k => (Uf D k c * (Lf D r k * x r))%fx))).
  2:{ intros r Hr. unfold LU. rewrite <- fsum_scale_r. apply fsum_ext. intros; kring. }
  rewrite fsum_swap.
  rewrite (fsum_ext K 1 (size D + 1) _ (fun k => (Uf D k c * y k)%fx)).
  2:{ intros k Hk. rewrite fsum_scale. f_equal. rewrite <- (Hb k) by lia.
      rewrite (fsum_split K 1 k) by lia. rewrite (fsum_cons K k) by lia. rewrite (fsum_zero K 1 k).
      - rewrite (fsum_ext K (k + 1) (size D + 1) _ (fun i => (ext D i k * x i)%fx)).
        + unfold Lf. replace (k <=? k) with true by lia. kring.
        + intros i Hi. unfold Lf. now replace (k <=? i) with true by lia.
      - intros i Hi. unfold Lf. replace (k <=? i) with false by lia. kring. }
  rewrite (fsum_split K 1 c) by lia. rewrite (fsum_cons K c) by lia. rewrite (fsum_zero K (c + 1)).
  - rewrite (fsum_ext K 1 c _ (fun k => (ext D k c * y k)%fx)).
    + unfold Uf. replace (c <? c) with false by lia. replace (c =? c) with true by lia. kring.
    + intros k Hk. unfold Uf. now replace (k <? c) with true by lia.
  - intros k Hk. unfold Uf. replace (k <? c) with false by lia. replace (k =? c) with false by lia. kring.
Qed.

Lemma fbsubt_solves : forall (D : data) b, wf D -> diag_ok D -> 1 <= size D ->
  exists x, fbsubt A D b = Some x /\
    forall c, 1 <= c <= size D -> fsum 1 (size D + 1) (fun r => (LU D r c * x r)%fx) = b c.
Proof.
  intros D b Hw Hd Hs. unfold fbsubt.
  destruct (for_up_ind (Z -> F K) (fun ii v => (forall k, ii <= k -> v k = b k) /\
      (forall i, 1 <= i < ii -> (v i + fsum 1 i (fun k => (ext D k i * v k)%fx))%fx = b i))
    (fun ii v' =>
      for_up (low D ii) ii (fun jj v'' =>
        let* x := vget A (size D) v'' ii in
        let* a := load_ A D (addr_u A D jj ii) in
        let* y := vget A (size D) v'' jj in
        vset A (size D) v'' ii (nsub A x (nmul A a y))) v') 1 (size D + 1) b) as (y & E & _ & Hy).
  - lia.
  - split; [reflexivity|]. intros; lia.
  - intros ii v Hi (O & Hv). pose proof (low_range D ii Hw ltac:(lia)) as Hl.
    destruct (for_up_ind (Z -> F K) (fun jj w => (forall k, k <> ii -> w k = v k) /\
        w ii = (v ii - fsum (low D ii) jj (fun k => (ext D k ii * v k)%fx))%fx)
      (fun jj v'' =>
        let* x := vget A (size D) v'' ii in
        let* a := load_ A D (addr_u A D jj ii) in
        let* y := vget A (size D) v'' jj in
        vset A (size D) v'' ii (nsub A x (nmul A a y))) (low D ii) ii v) as (w & E & Ow & Vw).
    + lia.
    + split; [reflexivity|]. rewrite fsum_empty by lia. kring.
    + intros jj w Hj (Ow & Vw). rewrite !vget_ok by lia.
      assert (He : env D jj ii) by (apply env_u; try assumption; lia).
      rewrite rd_u by (assumption || lia). cbn [bind]. rewrite vset_ok by lia.
      eexists. split; [reflexivity|]. split.
      * intros k Hk. rewrite upd_other by assumption. now apply Ow.
      * rewrite upd_same. rewrite fsum_snoc by lia. cbn [nsub nmul exA]. rewrite (Ow jj) by lia. rewrite Vw.
        rewrite ext_env by assumption. kring.
    + exists w. split; [assumption|]. split.
      * intros k Hk. rewrite Ow by lia. apply O. lia.
      * intros i Hi'. destruct (Z.eq_dec i ii) as [->|N].
        -- rewrite Vw, (O ii) by lia.
           rewrite (fsum_split K 1 (low D ii)) by lia. rewrite (fsum_zero K 1 (low D ii)).
           ++ rewrite (fsum_ext K (low D ii) ii (fun k => (ext D k ii * w k)%fx) (fun k => (ext D k ii * v k)%fx)).
              ** kring.
              ** intros k Hk. now rewrite Ow by lia.
           ++ intros k Hk. rewrite ext_out; [kring|]. intros (_ & _ & X). rewrite Z.max_r, Z.min_l in X by lia. lia.
        -- rewrite Ow by lia. rewrite <- (Hv i) by lia. f_equal. apply fsum_ext. intros k Hk. now rewrite Ow by lia.
  - match goal with |- context [bind ?x _] => replace x with (Some y) by (symmetry; exact E) end. cbn [bind].
    set (body := fun jj v' => let* v'' := div_row A D jj v' in
      for_up (low D jj) jj (fun ii w =>
        let* x := vget A (size D) w ii in
        let* a := load_ A D (addr_l A D jj ii) in
        let* y := vget A (size D) w jj in
        vset A (size D) w ii (nsub A x (nmul A a y))) v'').
    destruct (for_down_ind (Z -> F K) (fun j v =>
        (forall i, j < i <= size D -> (ext D i i * v i + fsum (i + 1) (size D + 1) (fun k => (ext D k i * v k)%fx))%fx = y i) /\
        (forall i, 1 <= i <= j -> (v i + fsum (j + 1) (size D + 1) (fun k => (ext D k i * v k)%fx))%fx = y i))
      body (size D) 1 y) as (x & Ex & Hhi & Hlo).
    + lia.
    + split; [intros; lia|]. intros i Hi. rewrite fsum_empty by lia. kring.
    + intros jj v Hj (Hhi & Hlo). pose proof (low_range D jj Hw ltac:(lia)) as Hl.
      unfold body. rewrite div_row_spec by (assumption || lia). cbn [bind].
      set (q := (v jj / ext D jj jj)%fx).
      destruct (for_up_ind (Z -> F K) (fun ii w => forall k, w k =
          if (low D jj <=? k) && (k <? ii) then (v k - ext D jj k * q)%fx else if k =? jj then q else v k)
        (fun ii w =>
          let* x := vget A (size D) w ii in
          let* a := load_ A D (addr_l A D jj ii) in
          let* y := vget A (size D) w jj in
          vset A (size D) w ii (nsub A x (nmul A a y))) (low D jj) jj (upd v jj q)) as (w & Ew & HW).
      * lia.
      * intros k. replace ((low D jj <=? k) && (k <? low D jj)) with false by lia. reflexivity.
      * intros ii w Hii HW. rewrite !vget_ok by lia.
        assert (He : env D jj ii) by (apply env_l; try assumption; lia).
        rewrite rd_l by (assumption || lia). cbn [bind]. rewrite vset_ok by lia.
        eexists. split; [reflexivity|]. intros k. unfold upd. destruct (Z.eqb_spec k ii) as [->|N].
        -- replace ((low D jj <=? ii) && (ii <? ii + 1)) with true by lia.
           rewrite (HW ii), (HW jj).
           replace ((low D jj <=? ii) && (ii <? ii)) with false by lia.
           replace ((low D jj <=? jj) && (jj <? ii)) with false by lia.
           replace (ii =? jj) with false by lia. rewrite Z.eqb_refl.
           rewrite ext_env by assumption. reflexivity.
        -- rewrite HW. replace ((low D jj <=? k) && (k <? ii + 1)) with ((low D jj <=? k) && (k <? ii)) by lia. reflexivity.
      * exists w. split; [assumption|].
        assert (Wj : w jj = q).
        { rewrite HW. replace ((low D jj <=? jj) && (jj <? jj)) with false by lia. now rewrite Z.eqb_refl. }
        assert (Wh : forall k, jj < k -> w k = v k).
        { intros k Hk. rewrite HW. replace ((low D jj <=? k) && (k <? jj)) with false by lia.
          now replace (k =? jj) with false by lia. }
        split.
        -- intros i Hi. destruct (Z.eq_dec i jj) as [->|N].
           ++ rewrite Wj. unfold q. rewrite fmul_inv by (apply Hd; lia).
              rewrite <- (Hlo jj) by lia. f_equal. apply fsum_ext. intros k Hk. now rewrite Wh by lia.
           ++ rewrite Wh by lia. rewrite <- (Hhi i) by lia. f_equal. apply fsum_ext. intros k Hk. now rewrite Wh by lia.
        -- intros i Hi. replace (jj - 1 + 1) with jj by lia. rewrite (fsum_cons K jj) by lia. rewrite Wj.
           rewrite (fsum_ext K (jj + 1) (size D + 1) _ (fun k => (ext D k i * v k)%fx)) by (intros k Hk; now rewrite Wh by lia).
           rewrite <- (Hlo i) by lia. rewrite HW. destruct (Z.leb_spec (low D jj) i) as [Q|Q]; cbn [andb].
           ++ replace (i <? jj) with true by lia. kring.
           ++ replace (i =? jj) with false by lia.
              rewrite (ext_out _ D jj i); [kring|]. intros (_ & _ & X). rewrite Z.max_l, Z.min_r in X by lia. lia.
    + match goal with |- context [bind ?e _] => replace e with (Some x) by (symmetry; exact Ex) end. cbn [bind].
      rewrite div_row_spec by (assumption || lia). eexists. split; [reflexivity|].
      apply LUt_solves with y.
      * intros i Hi. apply Hy. lia.
      * intros i Hi. destruct (Z.eq_dec i 1) as [->|N].
        -- rewrite upd_same. rewrite fmul_inv by (apply Hd; lia). rewrite <- (Hlo 1) by lia. f_equal.
           apply fsum_ext. intros k Hk. now rewrite upd_other by lia.
        -- rewrite upd_other by assumption. rewrite <- (Hhi i) by lia. f_equal. apply fsum_ext.
           intros k Hk. now rewrite upd_other by lia.
Qed.
End Exact.
