(* Assembly of the matrix results in the form used by P_Matrix.v *)
Require Import ZArith List Lia Bool Field.
Require Import ZifyBool.
Require Import Verif.Loops Verif.FieldSums Verif.Matrix_Model Verif.Matrix_Layout Verif.Matrix_LU
  Verif.Matrix_Load Verif.Matrix_Exact Verif.Matrix_InPlace Verif.Matrix_Spec.
Import ListNotations.
Local Open Scope Z_scope.

Lemma build_facts : forall A s ws, 0 <= s -> (forall w, In w ws -> fst w <= s /\ snd w <= s) ->
  exists D, build A s ws = Some D /\ size D = s /\ wf D /\ cells D = (fun _ => n0 A) /\
   (forall i j, wanted s ws i j -> 0 < i -> 0 < j -> env D i j).
Proof.
  intros A s ws Hs Hin. destruct (iwants_all s ws Hs Hin) as (lo & E & Hw & Hd).
  unfold build. rewrite E. cbn [bind]. eexists. split; [reflexivity|]. split; [reflexivity|]. split; [exact Hw|].
  split; [reflexivity|]. intros i j W Hi Hj. destruct (W Hi Hj) as [(-> & L)|[H|H]].
  - apply env_diag; [exact Hw|cbn; lia].
  - apply (Hd (i, j) H); cbn; lia.
  - apply in_env_sym. apply (Hd (j, i) H); cbn; lia.
Qed.

Lemma wanted_size : forall s ws i, (forall w, In w ws -> fst w <= s /\ snd w <= s) -> 0 <= s -> wanted s ws i i -> i <= s.
Proof.
  intros s ws i Hin Hs W. destruct (Z_le_gt_dec i 0); [lia|].
  destruct (W ltac:(lia) ltac:(lia)) as [(_ & L)|[H|H]]; [assumption| |]; apply Hin in H; cbn in H; lia.
Qed.

Lemma wanted_ok : forall A s ws (D : data A) x, (forall w, In w ws -> fst w <= s /\ snd w <= s) -> 0 <= s ->
  size D = s -> (forall i j, wanted s ws i j -> 0 < i -> 0 < j -> env D i j) -> load_wanted s ws x -> load_ok A D x.
Proof.
  intros A s ws D x Hin Hs Es He Hx.
  destruct x; cbn [load_wanted load_ok] in *; unfold pos_env.
  - now apply He.
  - rewrite Es. now apply wanted_size with ws.
  - now apply He.
  - destruct Hx as (W1 & W2 & W3). rewrite Es. split; [now apply wanted_size with ws|].
    split; [now apply wanted_size with ws|]. now apply He.
  - destruct Hx as (W1 & W2 & W3 & W4). split; [now apply He|]. split; [now apply He|]. split; now apply He.
Qed.

Lemma start_mat_facts : forall A s ws junk mp, 0 <= s -> (forall w, In w ws -> fst w <= s /\ snd w <= s) ->
  exists M, start_mat A s ws junk mp = Some M /\ size (aa M) = s /\ mwf A M /\ min_pivot M = mp /\
    cells (aa M) = (fun _ => n0 A) /\
   (forall x, load_wanted s ws x -> load_ok A (aa M) x).
Proof.
  intros A s ws junk mp Hs Hin. destruct (build_facts A s ws Hs Hin) as (D & E & Es & Hw & Ec & He).
  unfold start_mat. rewrite E. cbn [bind]. eexists. split; [reflexivity|]. split; [assumption|].
  split; [split; [exact Hw|split; reflexivity]|]. split; [reflexivity|]. split; [exact Ec|].
  intros x Hx. cbn. now apply wanted_ok with s ws.
Qed.

(* ---- C01 ---- *)
Lemma addr_m_inv : forall A (D : data A) r c a, wf D -> addr_m A D r c = Some a -> env D r c /\ a = ea (low D) r c.
Proof.
  intros A D r c a Hw E. pose proof E as E'. unfold addr_m in E'.
  destruct ((0 <? r) && (r <=? size D) && (1 <=? low D r) && (low D r <=? c) && (0 <? c) && (c <=? size D)
           && (1 <=? low D c) && (low D c <=? r)) eqn:B; [|discriminate].
  assert (He : env D r c).
  { repeat split; try lia. destruct (Z_le_gt_dec r c).
    - rewrite Z.max_r, Z.min_l by lia. lia.
    - rewrite Z.max_l, Z.min_r by lia. lia. }
  split; [assumption|]. rewrite addr_m_env in E by assumption. congruence.
Qed.

Lemma storage_layout : forall A s ws, 0 <= s -> (forall w, In w ws -> fst w <= s /\ snd w <= s) ->
  exists D, build A s ws = Some D /\ size D = s /\
    (forall i j, 0 < i -> 0 < j -> wanted s ws i j -> exists a, addr_m A D i j = Some a) /\
    (forall r c a, addr_m A D r c = Some a -> 0 < a < nzcount (size D) (low D)) /\
    (forall r c r' c' a, addr_m A D r c = Some a -> addr_m A D r' c' = Some a -> r = r' /\ c = c') /\
    (forall a, 0 < a < nzcount (size D) (low D) -> exists r c, addr_m A D r c = Some a) /\
    (forall r, 1 <= r <= s -> addr_d A D r = addr_m A D r r) /\
    (forall r c a, addr_m A D r c = Some a -> r <= c -> addr_u A D r c = Some a) /\
    (forall r c a, addr_m A D r c = Some a -> c < r -> addr_l A D r c = Some a).
Proof.
  intros A s ws Hs Hin. destruct (build_facts A s ws Hs Hin) as (D & E & Es & Hw & Ec & He).
  exists D. split; [assumption|]. split; [assumption|]. split.
  { intros i j Hi Hj W. eexists. apply addr_m_env; auto. }
  split.
  { intros r c a Ha. apply addr_m_inv in Ha; [|assumption]. destruct Ha as (Hv & ->). now apply ea_range. }
  split.
  { intros r c r' c' a Ha Ha'. apply addr_m_inv in Ha; [|assumption]. apply addr_m_inv in Ha'; [|assumption].
    destruct Ha as (Hv & Ea). destruct Ha' as (Hv' & Ea'). apply (ea_inj (size D) (low D)); try assumption. congruence. }
  split.
  { intros a Ha. destruct (ea_surj (size D) (low D) a Hw Ha) as (r & c & Hv & <-). exists r, c. now apply addr_m_env. }
  split.
  { intros r Hr. destruct (addr_d_env A D r Hw ltac:(lia)) as (-> & Hv). now rewrite addr_m_env. }
  split.
  { intros r c a Ha L. apply addr_m_inv in Ha; [|assumption]. destruct Ha as (Hv & ->). now apply addr_u_env. }
  intros r c a Ha L. apply addr_m_inv in Ha; [|assumption]. destruct Ha as (Hv & ->). now apply addr_l_env.
Qed.

Definition write_m (A : arith) (w : Z * Z * num A) (D : data A) : option (data A) :=
  store_ A D (addr_m A D (fst (fst w)) (snd (fst w))) (snd w).

Lemma storage_map : forall A s ws l, 0 <= s -> (forall w, In w ws -> fst w <= s /\ snd w <= s) ->
  (forall w, In w l -> 0 < fst (fst w) /\ 0 < snd (fst w) /\ wanted s ws (fst (fst w)) (snd (fst w))) ->
  exists D D', build A s ws = Some D /\ foldM (write_m A) l D = Some D' /\
    forall r c, 1 <= r <= s -> 1 <= c <= s -> read_s A D' r c = Some (last_write (n0 A) l r c).
Proof.
  intros A s ws l Hs Hin Hl. destruct (build_facts A s ws Hs Hin) as (D & E & Es & Hw & Ec & He).
  destruct (foldM_ind _ _ (fun done D' => shape D D' /\ (forall r c, env D r c -> ent D' r c = last_write (n0 A) done r c) /\
      (forall r c, ~ env D r c -> 1 <= r <= s -> 1 <= c <= s -> last_write (n0 A) done r c = n0 A))
     (write_m A) l D) as (D' & E' & Sh & V & V').
  - split; [apply shape_refl|]. split; [|reflexivity]. intros r c _. unfold ent. rewrite Ec. reflexivity.
  - intros done ((r0 & c0) & v) D1 Hi (Sh & V & V'). destruct (Hl _ Hi) as (P1 & P2 & W). cbn [fst snd] in *.
    assert (Hv : env D r0 c0) by auto.
    assert (Hv1 : env D1 r0 c0) by now apply (shape_env A D).
    assert (Hw1 : wf D1) by now apply (shape_wf A D).
    unfold write_m. cbn [fst snd]. rewrite wr_m by assumption. eexists. split; [reflexivity|].
    split; [now apply shape_trans with D1|]. unfold last_write in *. split; intros r c; rewrite fold_left_app; cbn [fold_left fst snd].
    + intros Hrc. destruct ((r0 =? r) && (c0 =? c)) eqn:B.
      * assert (r0 = r) by lia. assert (c0 = c) by lia. subst. apply ent_put.
      * rewrite ent_put_other; [now apply V|assumption|assumption|now apply (shape_env A D)|intros Q; inversion Q; lia].
    + intros N Hr Hc. replace ((r0 =? r) && (c0 =? c)) with false.
      * now apply V'.
      * symmetry. destruct ((r0 =? r) && (c0 =? c)) eqn:B; [|reflexivity]. exfalso. apply N.
        assert (r0 = r) by lia. assert (c0 = c) by lia. now subst.
  - exists D, D'. split; [assumption|]. split; [assumption|]. intros r c Hr Hc.
    assert (Hw' : wf D') by now apply (shape_wf A D). assert (size D' = s) by (destruct Sh; lia).
    rewrite read_s_ext by (assumption || lia). f_equal. unfold ext. destruct (env_b D' r c) eqn:B.
    + apply env_b_spec in B. apply V. now apply (shape_env A D D').
    + symmetry. apply V'; try assumption. intros X. apply (shape_env A D D' r c Sh) in X. apply env_b_spec in X. congruence.
Qed.

(* ---- C02 ---- *)
Section C02.
Variable K : fld.
Add Field Kf2 : (fth K).
Lemma acts_stamp : forall x r c, 1 <= r -> 1 <= c ->
  lsum K (map (fun a => a_at K a r c) (acts (exA K) x)) = @stamp K (exA K) (fun v => v) x r c.
Proof.
  intros x r c Hr Hc.
  assert (A1 : forall i j s v, lsum K (map (fun a => a_at K a r c) (act1 (exA K) i j s v)) =
     fmul K (if s then fopp K v else v) (fmul K (delta K r i) (delta K c j))).
  { intros i j s v. unfold act1, delta.
    destruct (Z.ltb_spec 0 i); destruct (Z.ltb_spec 0 j); cbn [andb map];
      try (destruct (Z.eqb_spec r i); try lia; destruct (Z.eqb_spec c j); try lia; cbn [lsum fold_right]; ring).
    unfold a_at, a_val; cbn [a_r a_c a_sub a_v].
    destruct (Z.eqb_spec i r); destruct (Z.eqb_spec r i); try lia;
    destruct (Z.eqb_spec j c); destruct (Z.eqb_spec c j); try lia; destruct s; cbn [andb lsum fold_right]; ring. }
  destruct x as [i j v|i v|i j v|i j v|r1 r2 c1 c2 v]; cbn [acts stamp]; rewrite ?map_app, ?lsum_app, ?A1; ring.
Qed.

Lemma stamping : forall s ws l junk mp, 0 <= s -> (forall w, In w ws -> fst w <= s /\ snd w <= s) ->
  (forall x, In x l -> load_wanted s ws x) ->
  exists M M', start_mat (exA K) s ws junk mp = Some M /\ foldM (do_load (exA K)) l M = Some M' /\
    forall r c, 1 <= r <= s -> 1 <= c <= s ->
      read_s (exA K) (aa M') r c = Some (lsum K (map (fun x => @stamp K (exA K) (fun v => v) x r c) l)).
Proof.
  intros s ws l junk mp Hs Hin Hl.
  destruct (start_mat_facts (exA K) s ws junk mp Hs Hin) as (M & E & Es & (Hw & Hsl) & Emp & Ec & Hok).
  destruct (foldM_ind _ _ (fun done M' => shape (aa M) (aa M') /\
      forall r c, 1 <= r <= s -> 1 <= c <= s -> ext (aa M') r c = lsum K (map (fun x => @stamp K (exA K) (fun v => v) x r c) done))
     (do_load (exA K)) l M) as (M' & E' & Sh & V).
  - split; [apply shape_refl|]. intros r c _ _. unfold ext, ent. rewrite Ec. now destruct (env_b _ _ _).
  - intros done x M1 Hi (Sh & V). assert (Hw1 : wf (aa M1)) by now apply (shape_wf _ (aa M)).
    destruct (do_load_loaded (exA K) x M1 Hw1) as (M2 & E2 & Ea & _ & _ & _ & Hacts).
    { apply load_ok_shape with (aa M); [assumption|]. apply Hok. now apply Hl. }
    exists M2. split; [assumption|]. rewrite Ea. split.
    + apply shape_trans with (aa M1); [assumption|apply fold_aput_shape].
    + intros r c Hr Hc. rewrite ext_fold; [|assumption|intros a Ha; now apply Hacts].
      rewrite V by assumption. rewrite map_app, lsum_app. f_equal. cbn [map].
      rewrite acts_stamp by lia. cbn [lsum fold_right]. ring.
  - exists M, M'. split; [assumption|]. split; [assumption|]. intros r c Hr Hc.
    rewrite read_s_ext; [f_equal; now apply V|now apply (shape_wf _ (aa M))| |]; destruct Sh; lia.
Qed.
End C02.

(* ---- histories ---- *)
Lemma foldM_app : forall X S (f : X -> S -> option S) l1 l2 s,
  foldM f (l1 ++ l2) s = let* s1 := foldM f l1 s in foldM f l2 s1.
Proof. induction l1 as [|x l1 IH]; intros l2 s; [reflexivity|]. cbn. destruct (f x s); cbn; [apply IH|reflexivity]. Qed.

Lemma history_lu : forall A s ws junk mp l b, 0 <= s -> (forall w, In w ws -> fst w <= s /\ snd w <= s) ->
  ops_wanted s ws l -> proto A true l -> (b = true -> stale_after A true l = false) ->
  exists M0 M1 M2, start_mat A s ws junk mp = Some M0 /\ foldM (run1 A) l M0 = Some M1 /\ mwf A M1 /\
    size (aa M1) = s /\ lu_decomp A b M1 = Some M2 /\
    aa M2 = aa M1 /\ min_pivot M2 = min_pivot M1 /\ mwf A M2 /\ LUrec A (aa M1) (min_pivot M1) (lu M2).
Proof.
  intros A s ws junk mp l b Hs Hin Hl Hp Hb.
  destruct (start_mat_facts A s ws junk mp Hs Hin) as (M0 & E & Es & Hm & Emp & Ec & Hok).
  destruct (run_inv A l M0 true Hm) as (M1 & E1 & Hm1 & Sh & Hsy).
  { intros x Hx. apply Hok. now apply Hl. }
  { assumption. } { discriminate. }
  destruct (lu_decomp_spec A b M1 Hm1) as (M2 & E2 & Ea & Em & Hm2 & HL & _); [auto|].
  exists M0, M1, M2. repeat (split; [assumption|]). split; [destruct Sh; lia|]. repeat (split; [assumption|]). assumption.
Qed.

Lemma ent_read_eq : forall A (D D' : data A), wf D -> shape D D' -> (forall r c, env D r c -> ent D' r c = ent D r c) ->
  forall r c, 1 <= r <= size D -> 1 <= c <= size D -> read_s A D' r c = read_s A D r c.
Proof.
  intros A D D' Hw Sh He r c Hr Hc. assert (Hw' : wf D') by now apply (shape_wf A D).
  destruct Sh as (S1 & S2). rewrite !read_s_ext by (assumption || lia). f_equal.
  unfold ext, env_b. rewrite S1, S2. fold (env_b D r c). destruct (env_b D r c) eqn:B; [|reflexivity].
  apply He. now apply env_b_spec.
Qed.

(* ---- C06 ---- *)
Lemma partial_full : forall A s ws junk mp l, 0 <= s -> (forall w, In w ws -> fst w <= s /\ snd w <= s) ->
  ops_wanted s ws l -> proto A true l -> stale_after A true l = false ->
  exists M0 M1 Mp, start_mat A s ws junk mp = Some M0 /\ foldM (run1 A) l M0 = Some M1 /\
    lu_decomp A true M1 = Some Mp /\
    forall junk' ch, exists Mf,
      lu_decomp A false (mkmat (aa M1) (mkdata (size (aa M1)) (low (aa M1)) junk') ch (min_pivot M1)) = Some Mf /\
      forall r c, 1 <= r <= s -> 1 <= c <= s -> read_s A (lu Mp) r c = read_s A (lu Mf) r c.
Proof.
  intros A s ws junk mp l Hs Hin Hl Hp Hst.
  destruct (history_lu A s ws junk mp l true Hs Hin Hl Hp (fun _ => Hst)) as
    (M0 & M1 & Mp & E0 & E1 & Hm1 & Esz & Ep & Eap & Emp & Hmp & HLp).
  exists M0, M1, Mp. repeat (split; [assumption|]). intros junk' ch.
  set (Mx := mkmat _ _ _ _).
  destruct (lu_decomp_spec A false Mx) as (Mf & Ef & Eaf & Emf & Hmf & HLf & _).
  { destruct Hm1 as (Hw1 & _). split; [exact Hw1|split; reflexivity]. }
  { discriminate. }
  exists Mf. split; [assumption|]. cbn [aa min_pivot Mx] in *.
  assert (Hwf : wf (lu Mf)). { destruct Hmf as (Hwa & Hsh). now apply (shape_wf A (aa Mf)). }
  assert (Shf : shape (lu Mf) (lu Mp)).
  { destruct Hmf as (_ & F1 & F2). destruct Hmp as (_ & P1 & P2). split; congruence. }
  assert (Sz : size (lu Mf) = s). { destruct Hmf as (_ & F1 & F2). congruence. }
  intros r c Hr Hc. apply ent_read_eq; try assumption; try lia.
  apply LUrec_unique with (aa M1) (min_pivot M1); assumption.
Qed.

(* ---- C07 ---- *)
Lemma inplace_copy : forall A s ws junk mp l, (forall a w, wsub A a w = nsub A a (wnar A w)) ->
  0 <= s -> (forall w, In w ws -> fst w <= s /\ snd w <= s) ->
  (forall x, In x l -> load_wanted s ws x) ->
  exists M0 M1 Mc D, start_mat A s ws junk mp = Some M0 /\ foldM (do_load A) l M0 = Some M1 /\
    lu_decomp A false M1 = Some Mc /\ ip_lu_decomp A mp (aa M1) = Some D /\
    forall r c, 1 <= r <= s -> 1 <= c <= s -> read_s A D r c = read_s A (lu Mc) r c.
Proof.
  intros A s ws junk mp l Hex Hs Hin Hl.
  destruct (start_mat_facts A s ws junk mp Hs Hin) as (M & E & Es & Hm & Emp & Ec & Hok).
  destruct (foldM_ind _ _ (fun done M' => shape (aa M) (aa M') /\ mwf A M' /\ min_pivot M' = mp)
     (do_load A) l M) as (M1 & E1 & Sh & Hm1 & Emp1).
  - split; [apply shape_refl|now split].
  - intros done x Mi Hi (Sh & Hmi & Epi). 
    destruct (do_load_loaded A x Mi (proj1 Hmi)) as (M2 & E2 & HL).
    { apply load_ok_shape with (aa M); [assumption|]. apply Hok. now apply Hl. }
    exists M2. split; [assumption|]. split; [|split; [now apply loaded_mwf with x Mi|]].
    + destruct HL as (-> & _). apply shape_trans with (aa Mi); [assumption|apply fold_aput_shape].
    + destruct HL as (_ & _ & -> & _). assumption.
  - destruct (lu_decomp_spec A false M1 Hm1) as (Mc & E2 & Ea & Em & Hmc & HL & _); [discriminate|].
    destruct (ip_lu_spec A Hex mp (aa M1) (proj1 Hm1)) as (D & ED & ShD & HD).
    exists M, M1, Mc, D. repeat (split; [assumption|]). rewrite Emp1 in HL.
    assert (ShC : shape (lu Mc) D).
    { destruct Hmc as (_ & S1 & S2). destruct ShD. rewrite Ea in *. split; congruence. }
    assert (Sz : size (lu Mc) = s).
    { destruct Hmc as (_ & S1 & S2). rewrite Ea in *. destruct Sh. lia. }
    intros r c Hr Hc. apply ent_read_eq; try lia; try assumption.
    + destruct Hmc as (Hwc & Hsc). now apply (shape_wf A (aa Mc)).
    + apply LUrec_unique with (aa M1) mp; try assumption.
      destruct Hmc as (Hwc & Hsc). now apply (shape_wf A (aa Mc)).
Qed.

(* ---- C03, C04, C05 ---- *)
Section Solve.
Variable K : fld.
Add Field Kf3 : (fth K).
Notation A := (exA K).

(* the value the accessor s(r,c) returns, as a dense matrix *)
Definition dense (D : data A) (r c : Z) : F K :=
  match read_s A D r c with Some x => x | None => f0 K end.

Lemma dense_ext : forall D r c, wf D -> 1 <= r <= size D -> 1 <= c <= size D -> dense D r c = ext D r c.
Proof. intros D r c Hw Hr Hc. unfold dense. now rewrite read_s_ext. Qed.

(* L*U of the stored factors *)
Definition prod (s : Z) (D : data A) (r c : Z) : F K :=
  tot K s (fun k => fmul K (lower K (dense D) r k) (upper1 K (dense D) k c)).
(* the diagonal entry left by the elimination of the earlier rows is exactly zero *)
Definition zero_pivot (a f : data A) (m : Z) : Prop :=
  dense a m m = fsum K 1 m (fun k => fmul K (lower K (dense f) m k) (upper1 K (dense f) k m)).

Lemma lower_Lf : forall D r k, wf D -> 1 <= r <= size D -> 1 <= k <= size D -> lower K (dense D) r k = Lf K D r k.
Proof. intros D r k Hw Hr Hk. unfold lower, Lf. destruct (k <=? r); [now apply dense_ext|reflexivity]. Qed.
Lemma upper_Uf : forall D k c, wf D -> 1 <= k <= size D -> 1 <= c <= size D -> upper1 K (dense D) k c = Uf K D k c.
Proof. intros D k c Hw Hk Hc. unfold upper1, Uf, delta. destruct (k <? c); [now apply dense_ext|reflexivity]. Qed.
Lemma prod_LU : forall D r c, wf D -> 1 <= r <= size D -> 1 <= c <= size D -> prod (size D) D r c = LU K D r c.
Proof.
  intros D r c Hw Hr Hc. unfold prod, tot, LU. apply fsum_ext. intros k Hk.
  rewrite lower_Lf, upper_Uf by (assumption || lia). reflexivity.
Qed.
Lemma zero_singular : forall a f m, wf f -> shape f a -> 1 <= m <= size f -> (zero_pivot a f m <-> singular_at K a f m).
Proof.
  intros a f m Hw Hsh Hm. assert (Hwa : wf a) by now apply (shape_wf _ f).
  assert (size a = size f) by apply Hsh.
  unfold zero_pivot, singular_at, part. rewrite Z.min_id. rewrite dense_ext by (assumption || lia).
  rewrite (fsum_ext K 1 m _ (fun k => fmul K (Lf K f m k) (Uf K f k m))).
  - split; intros E.
    + change (ext a m m) with (ext a m m : F K) in *. rewrite E. ring.
    + now apply sub_eq.
  - intros k Hk. rewrite lower_Lf, upper_Uf by (assumption || lia). reflexivity.
Qed.

Lemma lu_exact : forall a mp f, wf f -> shape f a -> mp <> f0 K -> LUrec A a mp f ->
  forall r c, 1 <= r <= size f -> 1 <= c <= size f ->
   (r <> c -> prod (size f) f r c = dense a r c) /\
   (zero_pivot a f r -> prod (size f) f r r = fadd K (dense a r r) mp) /\
   (~ zero_pivot a f r -> prod (size f) f r r = dense a r r).
Proof.
  intros a mp f Hw Hsh Hmp HL r c Hr Hc.
  assert (Hwa : wf a) by now apply (shape_wf _ f). assert (size a = size f) by apply Hsh.
  rewrite !prod_LU by assumption. rewrite !dense_ext by (assumption || lia).
  destruct (LU_eq K a mp f Hw Hsh Hmp HL r c Hr Hc) as (N & _).
  destruct (LU_eq K a mp f Hw Hsh Hmp HL r r Hr Hr) as (_ & S). destruct (S eq_refl) as (S1 & S2).
  split; [assumption|]. rewrite zero_singular by assumption. now split.
Qed.

Lemma rec_diag_ok : forall a mp f, wf f -> mp <> f0 K -> LUrec A a mp f -> diag_ok K f.
Proof.
  intros a mp f Hw Hmp HL m Hm. rewrite ext_env by now apply env_diag. now apply piv_nonzero with a mp.
Qed.

(* what the solved system is: A plus min_pivot at the diagonal positions listed in z *)
Definition solved (s : Z) (a : data A) (mp : F K) (z : Z -> bool) (r c : Z) : F K :=
  fadd K (dense a r c) (if (r =? c) && z r then mp else f0 K).

Lemma pivots : forall a mp f, wf f -> shape f a -> mp <> f0 K -> LUrec A a mp f ->
  exists z, (forall m, 1 <= m <= size f -> (z m = true <-> zero_pivot a f m)) /\
   forall r c, 1 <= r <= size f -> 1 <= c <= size f -> LU K f r c = solved (size f) a mp z r c.
Proof.
  intros a mp f Hw Hsh Hmp HL.
  exists (fun m => fz K (fsub K (dense a m m) (fsum K 1 m (fun k => fmul K (lower K (dense f) m k) (upper1 K (dense f) k m))))).
  assert (Hz : forall m, 1 <= m <= size f -> (fz K (fsub K (dense a m m) (fsum K 1 m (fun k => fmul K (lower K (dense f) m k) (upper1 K (dense f) k m)))) = true <-> zero_pivot a f m)).
  { intros m Hm. rewrite fz_ok. unfold zero_pivot. split; intros E; [now apply sub_eq|]. rewrite E. ring. }
  split; [assumption|]. intros r c Hr Hc.
  destruct (lu_exact a mp f Hw Hsh Hmp HL r c Hr Hc) as (N & S1 & S2).
  rewrite <- prod_LU by assumption. unfold solved.
  destruct (Z.eqb_spec r c) as [<-|Ne]; cbn [andb].
  - destruct (fz K _) eqn:B.
    + apply Hz in B; [|assumption]. now apply S1.
    + rewrite S2. ring. intros X. apply Hz in X; [|assumption]. congruence.
  - rewrite N by assumption. ring.
Qed.

Lemma history_solve : forall s ws junk mp l b, 0 <= s -> (forall w, In w ws -> fst w <= s /\ snd w <= s) ->
  ops_wanted s ws l -> proto A true l -> (b = true -> stale_after A true l = false) ->
  exists M0 M1 M2, start_mat A s ws junk mp = Some M0 /\ foldM (run1 A) l M0 = Some M1 /\
    lu_decomp A b M1 = Some M2 /\
    (min_pivot M1 <> f0 K -> exists z,
      (forall m, 1 <= m <= s -> (z m = true <-> zero_pivot (aa M1) (lu M2) m)) /\
      (forall r c, 1 <= r <= s -> 1 <= c <= s -> prod s (lu M2) r c = solved s (aa M1) (min_pivot M1) z r c) /\
      (forall v, exists x, fbsub1 A (lu M2) v = Some x /\ x 0 = v 0 /\
        forall r, 1 <= r <= s -> tot K s (fun c => fmul K (solved s (aa M1) (min_pivot M1) z r c) (x c)) = v r) /\
      (forall v c, exists x, fbsub3 A (lu M2) v c = Some x /\ x 0 = f0 K /\
        forall r, 1 <= r <= s -> tot K s (fun c => fmul K (solved s (aa M1) (min_pivot M1) z r c) (x c)) = v r) /\
      (1 <= s -> forall v, exists x, fbsubt A (lu M2) v = Some x /\
        forall c, 1 <= c <= s -> tot K s (fun r => fmul K (solved s (aa M1) (min_pivot M1) z r c) (x r)) = v c)).
Proof.
  intros s ws junk mp l b Hs Hin Hl Hp Hb.
  destruct (history_lu A s ws junk mp l b Hs Hin Hl Hp Hb) as
    (M0 & M1 & M2 & E0 & E1 & Hm1 & Esz & E2 & Ea & Em & Hm2 & HL).
  exists M0, M1, M2. repeat (split; [assumption|]). intros Hmp.
  destruct Hm2 as (Hw2 & Sh2). rewrite Ea in *.
  assert (Hwl : wf (lu M2)) by now apply (shape_wf A (aa M1)).
  assert (Sh : shape (lu M2) (aa M1)) by (destruct Sh2; split; congruence).
  assert (Sz : size (lu M2) = s) by (destruct Sh; congruence).
  destruct (pivots (aa M1) (min_pivot M1) (lu M2) Hwl Sh Hmp HL) as (z & Hz & HZ).
  pose proof (rec_diag_ok _ _ _ Hwl Hmp HL) as Hd. rewrite Sz in *.
  exists z. split; [assumption|].
  assert (Hrow : forall x r, 1 <= r <= s -> fsum K 1 (size (lu M2) + 1) (fun c => fmul K (LU K (lu M2) r c) (x c)) =
     tot K s (fun c => fmul K (solved s (aa M1) (min_pivot M1) z r c) (x c))).
  { intros x r Hr. unfold tot. rewrite Sz. apply fsum_ext. intros c Hc. now rewrite HZ by lia. }
  split.
  { intros r c Hr Hc. rewrite <- HZ by assumption. rewrite <- Sz. apply prod_LU; [assumption|lia|lia]. }
  split.
  { intros v. destruct (fbsub1_solves K (lu M2) v Hwl Hd) as (x & Ex & X0 & HX).
    exists x. split; [assumption|]. split; [assumption|]. intros r Hr. rewrite <- Hrow by assumption. apply HX. lia. }
  split.
  { intros v c. destruct (fbsub3_solves K (lu M2) v c Hwl Hd) as (x & Ex & X0 & HX).
    exists x. split; [assumption|]. split; [assumption|]. intros r Hr. rewrite <- Hrow by assumption. apply HX. lia. }
  intros H1 v. destruct (fbsubt_solves K (lu M2) v Hwl Hd) as (x & Ex & HX); [lia|].
  exists x. split; [assumption|]. intros c Hc. rewrite <- (HX c) by lia. unfold tot. rewrite Sz. apply fsum_ext.
  intros r Hr. now rewrite HZ by lia.
Qed.
End Solve.
