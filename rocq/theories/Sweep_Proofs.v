(* Lemmas about the sweeps of Sweep_Model.v *)
Require Import ZArith QArith Qpower Qabs Qround Lqa Lia List Bool.
Require Import Verif.Loops Verif.Qnum Verif.Sweep_Model.
Import ListNotations.
Local Open Scope Q_scope.

(* ---------- nesting ---------- *)

(* all combinations, the last list varying fastest *)
Fixpoint product (ls : list (list Q)) : list (list Q) :=
  match ls with
  | [] => [[]]
  | l :: r => flat_map (fun x => map (cons x) (product r)) l
  end.

Definition sing (x : Q) : list Q := [x].

Lemma loop_bodies : forall tol c fuel v ls,
  dc_loop fuel tol c (fun x => Some [[x]]) v = Some ls ->
  exists l, ls = map sing l /\
    forall body g, (forall x, body x = Some (g x)) -> dc_loop fuel tol c body v = Some (flat_map g l).
Proof.
  intros tol c; induction fuel as [|f IH]; intros v ls H; [discriminate|].
  cbn in H. destruct (dc_next tol c v) as [v' ok] eqn:E. destruct ok.
  - destruct (dc_loop f tol c (fun x => Some [[x]]) v') as [r|] eqn:E2; [|discriminate].
    cbn in H. injection H as <-. destruct (IH _ _ E2) as (l & -> & Hb).
    exists (val v :: l); split; [reflexivity|].
    intros body g Hg. cbn. rewrite Hg. cbn. rewrite E, (Hb body g Hg). reflexivity.
  - injection H as <-. exists [val v]; split; [reflexivity|].
    intros body g Hg. cbn. rewrite Hg. cbn. rewrite E, app_nil_r. reflexivity.
Qed.

Lemma sing_inj : forall l l', map sing l = map sing l' -> l = l'.
Proof.
  induction l as [|x l IH]; destruct l'; cbn; intros H; try discriminate; auto.
  injection H as -> H. now rewrite (IH _ H).
Qed.

Lemma nested_env : forall tol fuel cs ls,
  Forall2 (fun c l => sweep_recursive fuel tol [c] [] = Some (map sing l)) cs ls ->
  forall env, sweep_recursive fuel tol cs env = Some (map (app env) (product ls)).
Proof.
  intros tol fuel cs ls H; induction H as [|c l cs ls Hc Hr IH]; intros env.
  - cbn. now rewrite app_nil_r.
  - cbn [sweep_recursive] in *. destruct (dc_first fuel tol c) as [v|]; [|discriminate].
    cbn in *. destruct (loop_bodies _ _ _ _ _ Hc) as (l' & El & Hb).
    apply sing_inj in El; subst l'.
    rewrite (Hb _ (fun x => map (app (env ++ [x])) (product ls))) by (intros; apply IH).
    f_equal. clear. induction l as [|x l IH]; cbn; [reflexivity|].
    rewrite map_app, IH, map_map. f_equal. apply map_ext; intros. now rewrite <- app_assoc.
Qed.

(* ---------- runs of one nest ---------- *)

Inductive path (tol : Q) (c : swp) : var -> list Q -> var -> Prop :=
| path_end : forall v, path tol c v [val v] v
| path_step : forall v v' l w,
    dc_next tol c v = (v', true) -> path tol c v' l w -> path tol c v (val v :: l) w.

Lemma path_app : forall tol c v l w, path tol c v l w -> forall w' l' z,
  dc_next tol c w = (w', true) -> path tol c w' l' z -> path tol c v (l ++ l') z.
Proof.
  intros tol c v l w H; induction H; intros w' l' z Hn Hp; cbn.
  - econstructor; eauto.
  - econstructor; eauto.
Qed.

Lemma path_loop : forall tol c v l w, path tol c v l w -> snd (dc_next tol c w) = false ->
  forall F, (length l <= F)%nat ->
  dc_loop F tol c (fun x => Some [[x]]) v = Some (map sing l) /\
  drain F tol c v = Some (fst (dc_next tol c w)).
Proof.
  intros tol c v l w H; induction H as [v|v v' l w Hn Hp IH]; intros Hw F HF;
    (destruct F as [|F]; [cbn in HF; lia|]); cbn [dc_loop drain bind].
  - destruct (dc_next tol c v) as [v' ok]; cbn in Hw; subst ok. now split.
  - rewrite Hn. cbn in HF. destruct (IH Hw F) as [A B]; [lia|]. rewrite A, B. now split.
Qed.

(* ---------- the visited grid indices, for linear and log sweeps alike ---------- *)

Definition upv (tol : Q) (c : swp) (x : Q) : Q :=
  if lin c then fixzero tol (x + step c) (step c) else x * step c.
Definition dnv (tol : Q) (c : swp) (x : Q) : Q :=
  if lin c then fixzero tol (x - step c) (step c) else x / step c.
Definition stepping (c : swp) : Prop :=
  (if lin c then qeqb (step c) 0 else qeqb (step c) 1) = false.

Section Indices.
Variables (tol : Q) (c : swp) (I : Q -> Z -> Prop) (N : Z).
Hypothesis Hst : stepping c.
Hypothesis I0 : I (start c) 0.
Hypothesis Iup : forall x k, (0 <= k)%Z -> I x k -> I (upv tol c x) (k + 1).
Hypothesis Ib : forall x k, (1 <= k)%Z -> (N <= k)%Z -> I x k -> in_window c x = false.

Lemma next_up : forall x, in_window c (upv tol c x) = true ->
  dc_next tol c (mk_var x false) = (mk_var (upv tol c x) false, true).
Proof.
  intros x H. unfold dc_next. rewrite Hst. cbn [rev_ val negb andb]. fold (upv tol c x).
  rewrite H. reflexivity.
Qed.

Lemma next_end : forall x, in_window c (upv tol c x) = false -> loop c = false ->
  dc_next tol c (mk_var x false) = (mk_var x false, false).
Proof.
  intros x H L. unfold dc_next. rewrite Hst. cbn [rev_ val negb andb]. fold (upv tol c x).
  rewrite H, L. reflexivity.
Qed.

Lemma next_turn : forall x, in_window c (upv tol c x) = false -> loop c = true ->
  dc_next tol c (mk_var x false) =
    if in_window c (dnv tol c x) then (mk_var (dnv tol c x) true, true) else (mk_var x true, false).
Proof.
  intros x H L. unfold dc_next. rewrite Hst. cbn [rev_ val negb andb]. fold (upv tol c x) (dnv tol c x).
  rewrite H, L. reflexivity.
Qed.

Lemma next_dn : forall x,
  dc_next tol c (mk_var x true) =
    if in_window c (dnv tol c x) then (mk_var (dnv tol c x) true, true) else (mk_var x true, false).
Proof.
  intros x. unfold dc_next. rewrite Hst. cbn [rev_ val negb andb]. reflexivity.
Qed.

Lemma forward : forall d (k : nat) x, I x (Z.of_nat k) -> (N <= Z.of_nat k + 1 + Z.of_nat d)%Z ->
  exists n xs w, path tol c (mk_var x false) xs (mk_var w false) /\
    Forall2 (fun v j => I v (Z.of_nat j)) xs (seq k (S n)) /\
    Forall (fun v => in_window c v = true) (tl xs) /\
    I w (Z.of_nat (k + n)) /\ (n = O -> w = x) /\ ((n > 0)%nat -> in_window c w = true) /\
    in_window c (upv tol c w) = false.
Proof.
  induction d as [|d IH]; intros k x Hx Hd.
  - exists O, [x], x. assert (E : in_window c (upv tol c x) = false).
    { apply (Ib _ (Z.of_nat k + 1)); try lia. apply Iup; [lia|assumption]. }
    repeat split; auto; try lia; try constructor; auto. now rewrite Nat.add_0_r.
  - destruct (in_window c (upv tol c x)) eqn:E.
    + assert (Hx' : I (upv tol c x) (Z.of_nat (S k))).
      { rewrite Nat2Z.inj_succ. apply Iup; [lia|assumption]. }
      destruct (IH (S k) _ Hx') as (n & xs & w & P & F & W & Iw & W0 & W1 & E'); [lia|].
      exists (S n), (x :: xs), w. repeat split; auto.
      * eapply path_step; [|exact P]. now apply next_up.
      * constructor; auto.
      * cbn. inversion P; subst; constructor; auto.
      * replace (k + S n)%nat with (S k + n)%nat by lia. assumption.
      * lia.
      * intros _. destruct n; [|apply W1; lia]. rewrite W0 by reflexivity. assumption.
    + exists O, [x], x. repeat split; auto; try lia; try constructor; auto. now rewrite Nat.add_0_r.
Qed.

Hypothesis Idn : forall x k, (0 <= k)%Z -> I x k -> I (dnv tol c x) (k - 1).
Hypothesis Imono : forall x y j k, I x k -> I y j -> (0 <= j)%Z -> (j < k)%Z ->
  in_window c x = true -> in_window c y = true.
Hypothesis Ilow : forall x, I x (-1) -> in_window c x = false.
Hypothesis Istart : forall x, I x 0 -> in_window c x = true.

Lemma downward : forall (k : nat) x, I x (Z.of_nat k) -> in_window c x = true ->
  exists xs w, path tol c (mk_var x true) xs (mk_var w true) /\
    Forall2 (fun v j => I v (Z.of_nat j)) xs (rev (seq 0 (S k))) /\
    snd (dc_next tol c (mk_var w true)) = false.
Proof.
  induction k as [|k IH]; intros x Hx Hw.
  - exists [x], x. repeat split; [apply (path_end tol c (mk_var x true))| |].
    + cbn. repeat constructor. exact Hx.
    + rewrite next_dn. rewrite Ilow; [reflexivity|]. apply (Idn x 0); [lia|assumption].
  - assert (Hd : I (dnv tol c x) (Z.of_nat k)).
    { replace (Z.of_nat k) with (Z.of_nat (S k) - 1)%Z by lia. apply Idn; [lia|assumption]. }
    assert (Wd : in_window c (dnv tol c x) = true).
    { apply (Imono x _ (Z.of_nat k) (Z.of_nat (S k))); auto; lia. }
    destruct (IH _ Hd Wd) as (xs & w & P & F & E).
    exists (x :: xs), w. repeat split; auto.
    + eapply path_step; [|exact P]. rewrite next_dn, Wd. reflexivity.
    + rewrite seq_S, rev_app_distr. cbn [rev app Nat.add]. constructor; assumption.
Qed.

(* forward sweep *)
Lemma sweep_fwd : loop c = false -> reverse_in c = false -> exists (n : nat) xs w F0,
  (forall F, (F0 <= F)%nat -> sweep_recursive F tol [c] [] = Some (map sing xs)) /\
  Forall2 (fun v j => I v (Z.of_nat j)) xs (seq 0 (S n)) /\
  I w (Z.of_nat n) /\ ((n > 0)%nat -> in_window c w = true) /\ in_window c (upv tol c w) = false.
Proof.
  intros L R. destruct (forward (Z.to_nat N) 0 (start c)) as (n & xs & w & P & F & W & Iw & W0 & W1 & E).
  { exact I0. } { lia. }
  exists n, xs, w, (length xs). repeat split; auto.
  intros G HG. cbn [sweep_recursive]. unfold dc_first. rewrite R. cbn [bind app].
  apply (path_loop _ _ _ _ _ P); [|assumption]. now rewrite next_end.
Qed.

(* sweep with "loop" *)
Lemma sweep_loop : loop c = true -> reverse_in c = false -> exists (n : nat) xs w F0,
  (forall F, (F0 <= F)%nat -> sweep_recursive F tol [c] [] = Some (map sing xs)) /\
  Forall2 (fun v j => I v (Z.of_nat j)) xs (seq 0 (S n) ++ rev (seq 0 n)) /\
  I w (Z.of_nat n) /\ ((n > 0)%nat -> in_window c w = true) /\ in_window c (upv tol c w) = false.
Proof.
  intros L R. destruct (forward (Z.to_nat N) 0 (start c)) as (n & xs & w & P & F & W & Iw & W0 & W1 & E).
  { exact I0. } { lia. }
  destruct n as [|n].
  - exists O, xs, w, (length xs). repeat split; auto; try lia.
    intros G HG. cbn [sweep_recursive]. unfold dc_first. rewrite R. cbn [bind app].
    apply (path_loop _ _ _ _ _ P); [|assumption]. rewrite next_turn by assumption.
    rewrite Ilow; [reflexivity|]. apply (Idn w 0); [lia|]. exact Iw.
  - assert (Hd : I (dnv tol c w) (Z.of_nat n)).
    { replace (Z.of_nat n) with (Z.of_nat (0 + S n) - 1)%Z by lia. apply Idn; [lia|assumption]. }
    assert (Ww : in_window c w = true) by (apply W1; lia).
    assert (Wd : in_window c (dnv tol c w) = true).
    { apply (Imono w _ (Z.of_nat n) (Z.of_nat (0 + S n))); auto; lia. }
    destruct (downward _ _ Hd Wd) as (ys & z & P2 & F2 & E2).
    exists (S n), (xs ++ ys), w, (length (xs ++ ys)). repeat split; auto.
    + intros G HG. cbn [sweep_recursive]. unfold dc_first. rewrite R. cbn [bind app].
      assert (P3 : path tol c (mk_var (start c) false) (xs ++ ys) (mk_var z true)).
      { eapply path_app; [exact P| |exact P2]. rewrite next_turn, Wd by assumption. reflexivity. }
      apply (path_loop _ _ _ _ _ P3); assumption.
    + apply Forall2_app; assumption.
Qed.

(* reverse sweep: what the code does *)
Lemma sweep_rev : loop c = false -> reverse_in c = true -> exists (n : nat) xs w F0,
  (forall F, (F0 <= F)%nat -> sweep_recursive F tol [c] [] = Some (map sing xs)) /\
  Forall2 (fun v j => I v (Z.of_nat j)) xs (match n with O => [O] | _ => rev (seq 0 n) end) /\
  I w (Z.of_nat n) /\ ((n > 0)%nat -> in_window c w = true) /\ in_window c (upv tol c w) = false.
Proof.
  intros L R. destruct (forward (Z.to_nat N) 0 (start c)) as (n & xs & w & P & F & W & Iw & W0 & W1 & E).
  { exact I0. } { lia. }
  assert (Hfirst : forall G, (length xs <= G)%nat ->
    dc_first G tol c = Some (fst (dc_next tol c (mk_var w true)))).
  { intros G HG. unfold dc_first. rewrite R.
    destruct (path_loop _ _ _ _ _ P) with (F := G) as [_ D]; [now rewrite next_end|assumption|].
    rewrite D, next_end by assumption. reflexivity. }
  destruct n as [|n].
  - exists O, [w], w, (S (length xs)). repeat split; auto; try lia.
    intros G HG. cbn [sweep_recursive]. rewrite Hfirst by lia.
      rewrite next_dn. assert (El : in_window c (dnv tol c w) = false).
      { apply Ilow. apply (Idn w 0); [lia|exact Iw]. }
      rewrite El. cbn [fst bind]. destruct G as [|G]; [lia|].
      cbn [dc_loop bind app]. rewrite next_dn. cbn [val]. rewrite El. reflexivity.
  - assert (Hd : I (dnv tol c w) (Z.of_nat n)).
    { replace (Z.of_nat n) with (Z.of_nat (0 + S n) - 1)%Z by lia. apply Idn; [lia|assumption]. }
    assert (Ww : in_window c w = true) by (apply W1; lia).
    assert (Wd : in_window c (dnv tol c w) = true).
    { apply (Imono w _ (Z.of_nat n) (Z.of_nat (0 + S n))); auto; lia. }
    destruct (downward _ _ Hd Wd) as (ys & z & P2 & F2 & E2).
    exists (S n), ys, w, (length xs + length ys)%nat. repeat split; auto.
    intros G HG. cbn [sweep_recursive]. rewrite Hfirst by lia.
    rewrite next_dn, Wd. cbn [fst bind app].
    apply (path_loop _ _ _ _ _ P2); [assumption|lia].
Qed.
End Indices.

(* ---------- linear ---------- *)

(* the k-th grid point *)
Definition grid (c : swp) (k : Z) : Q := start c + inject_Z k * step c.

(* v is grid point k, or the grid was shifted by less than tol*|step| so as to go through 0 *)
Definition Ilin (tol : Q) (c : swp) (v : Q) (k : Z) : Prop :=
  v == grid c k \/
  exists m, Qabs (grid c m) < tol * Qabs (step c) /\ v == inject_Z (k - m) * step c.

Lemma inj_plus1 : forall k, inject_Z (k + 1) == inject_Z k + 1.
Proof. intros; now rewrite inject_Z_plus. Qed.
Lemma inj_minus : forall k m, inject_Z (k - m) == inject_Z k - inject_Z m.
Proof. intros. unfold Z.sub. rewrite inject_Z_plus, inject_Z_opp. reflexivity. Qed.

Lemma fixzero_I : forall tol c v k, tol <= 1#20 -> 0 <= tol -> ~ step c == 0 ->
  Ilin tol c v k -> Ilin tol c (fixzero tol v (step c)) k.
Proof.
  intros tol c v k T T0 S [E|(m & Hm & E)]; unfold fixzero; qcase.
  - right. exists k. rewrite Z.sub_diag. split; [|ring].
    rewrite <- E. rewrite Qabs_Qmult, (Qabs_pos tol) in q by lra. lra.
  - now left.
  - right. exists m. split; [assumption|].
    rewrite E, !Qabs_Qmult, (Qabs_pos tol) in q by lra.
    assert (Sp : 0 < Qabs (step c)).
    { destruct (Qlt_le_dec 0 (Qabs (step c))); auto. exfalso; apply S.
      pose proof (Qle_Qabs (step c)); pose proof (Qle_Qabs (- step c)) as H1; rewrite Qabs_opp in H1; lra. }
    assert (q1 : Qabs (inject_Z (k - m)) < tol).
    { apply (Qmult_lt_r _ _ (Qabs (step c))); auto. lra. }
    apply Qabs_lt in q1. assert (A : inject_Z (k - m) < 1) by lra. assert (B : inject_Z (-1) < inject_Z (k - m)).
    { change (inject_Z (-1)) with (-1). lra. }
    change 1 with (inject_Z 1) in A. rewrite <- Zlt_Qlt in A, B.
    assert (k - m = 0)%Z as -> by lia. change (inject_Z 0) with 0. lra.
  - right. now exists m.
Qed.

Lemma Ilin_up : forall tol c, lin c = true -> tol <= 1#20 -> 0 <= tol -> ~ step c == 0 ->
  forall x k, (0 <= k)%Z -> Ilin tol c x k -> Ilin tol c (upv tol c x) (k + 1).
Proof.
  intros tol c Hl T T0 S x k _ H. unfold upv. rewrite Hl. apply fixzero_I; auto.
  destruct H as [E|(m & Hm & E)].
  - left. unfold grid in *. rewrite E, inj_plus1. ring.
  - right. exists m. split; auto. rewrite E. rewrite !inj_minus, inj_plus1. ring.
Qed.

Lemma Ilin_dn : forall tol c, lin c = true -> tol <= 1#20 -> 0 <= tol -> ~ step c == 0 ->
  forall x k, (0 <= k)%Z -> Ilin tol c x k -> Ilin tol c (dnv tol c x) (k - 1).
Proof.
  intros tol c Hl T T0 S x k _ H. unfold dnv. rewrite Hl. apply fixzero_I; auto.
  destruct H as [E|(m & Hm & E)].
  - left. unfold grid in *. rewrite E, inj_minus. change (inject_Z 1) with 1. ring.
  - right. exists m. split; auto. rewrite E. rewrite !inj_minus. change (inject_Z 1) with 1. ring.
Qed.

Lemma abs_pos : forall s, ~ s == 0 -> 0 < Qabs s.
Proof.
  intros s S. destruct (Qlt_le_dec 0 (Qabs s)); auto. exfalso; apply S.
  pose proof (Qle_Qabs s); pose proof (Qle_Qabs (- s)) as H1; rewrite Qabs_opp in H1; lra.
Qed.

(* in units of the step, counted from start *)
Lemma Ilin_units : forall tol c v k, 0 <= tol -> ~ step c == 0 -> Ilin tol c v k ->
  exists y, v == start c + y * step c /\ - tol <= y - inject_Z k <= tol.
Proof.
  intros tol c v k T S [E|(m & Hm & E)].
  - exists (inject_Z k). split; [exact E|lra].
  - exists ((v - start c) / step c). split; [field; auto|].
    pose proof (abs_pos _ S) as Sp.
    assert (D : (v - start c) / step c - inject_Z k == - (grid c m / step c)).
    { rewrite E, inj_minus. unfold grid. field; auto. }
    rewrite D.
    assert (A : Qabs (- (grid c m / step c)) < tol).
    { rewrite Qabs_opp. apply (Qmult_lt_r _ _ (Qabs (step c))); auto.
      rewrite <- Qabs_Qmult. assert (E2 : grid c m / step c * step c == grid c m) by (field; auto).
      rewrite E2. assumption. }
    apply Qabs_lt in A. lra.
Qed.

Lemma Ilin_near : forall tol c v k, 0 <= tol -> ~ step c == 0 -> Ilin tol c v k ->
  Qabs (v - grid c k) <= tol * Qabs (step c).
Proof.
  intros tol c v k T S H. destruct (Ilin_units _ _ _ _ T S H) as (y & E & Hy).
  assert (E2 : v - grid c k == (y - inject_Z k) * step c) by (unfold grid; rewrite E; ring).
  rewrite E2, Qabs_Qmult. apply Qmult_le_compat_r; [|apply Qabs_nonneg]. apply Qabs_le. lra.
Qed.

Lemma mul_le_neg : forall a b s, s < 0 -> (a * s <= b * s <-> b <= a).
Proof.
  intros a b s Hs. split; intros H.
  - apply (Qmult_le_r b a (- s)); lra.
  - assert (b * - s <= a * - s) by (apply Qmult_le_r; lra). lra.
Qed.

Lemma inord_aff : forall b s p q r, ~ s == 0 ->
  in_order (b + p * s) (b + q * s) (b + r * s) = in_order p q r.
Proof.
  intros b s p q r S. apply eq_true_iff_eq. rewrite !in_order_iff.
  assert (A : forall u w, b + u * s <= b + w * s <-> u * s <= w * s) by (intros; split; intro; lra).
  rewrite !A. destruct (Qlt_le_dec 0 s) as [P|P].
  - rewrite !Qmult_le_r by assumption. tauto.
  - assert (P' : s < 0) by (destruct (Qle_lt_or_eq _ _ P); auto; exfalso; apply S; assumption).
    rewrite !mul_le_neg by assumption. tauto.
Qed.

Lemma inord_ext : forall a b c a' b' c', a == a' -> b == b' -> c == c' ->
  in_order a b c = in_order a' b' c'.
Proof.
  intros a b c a' b' c' A B C. apply eq_true_iff_eq. rewrite !in_order_iff, A, B, C. tauto.
Qed.

(* the distance to stop in steps *)
Definition reach (c : swp) : Q := (stop c - start c) / step c.

Lemma window_units : forall c y v, lin c = true -> ~ step c == 0 -> v == start c + y * step c ->
  in_window c v = in_order (-1#10) y (reach c + (1#10)).
Proof.
  intros c y v Hl S E. unfold in_window. rewrite Hl.
  rewrite <- (inord_aff (start c) (step c) (-1#10) y) by assumption.
  apply inord_ext; [|exact E|].
  - field.
  - unfold reach. field. assumption.
Qed.

Lemma reach_bound : forall q, exists N, (1 <= N)%Z /\ q + 1 < inject_Z N.
Proof.
  intros q. exists (Z.max 1 (Qfloor q + 2)). split; [lia|].
  pose proof (Qlt_floor q) as H. rewrite inject_Z_plus in H. change (inject_Z 1) with 1 in H.
  assert (inject_Z (Qfloor q + 2) <= inject_Z (Z.max 1 (Qfloor q + 2))) by (rewrite <- Zle_Qle; lia).
  rewrite inject_Z_plus in H0. change (inject_Z 2) with 2 in H0. lra.
Qed.

Lemma inj_le : forall a b, (a <= b)%Z -> inject_Z a <= inject_Z b.
Proof. intros; now rewrite <- Zle_Qle. Qed.

Section Linear.
Variables (tol : Q) (c : swp).
Hypothesis Hl : lin c = true.
Hypothesis S : ~ step c == 0.
Hypothesis T : tol <= 1#20.
Hypothesis T0 : 0 <= tol.

Lemma lin_stepping : stepping c.
Proof. unfold stepping. rewrite Hl. qcase; auto. contradiction. Qed.

Lemma lin_I0 : Ilin tol c (start c) 0.
Proof. left. unfold grid. ring. Qed.

Lemma lin_bound : exists N, forall x k, (1 <= k)%Z -> (N <= k)%Z -> Ilin tol c x k -> in_window c x = false.
Proof.
  destruct (reach_bound (reach c)) as (N & _ & HN). exists N. intros x k K1 KN H.
  destruct (Ilin_units _ _ _ _ T0 S H) as (y & E & Hy).
  rewrite (window_units _ _ _ Hl S E). apply not_true_is_false. rewrite in_order_iff.
  apply inj_le in KN, K1. change (inject_Z 1) with 1 in K1. intros [A|A]; lra.
Qed.

Lemma lin_window : forall x k, (0 <= k)%Z -> Ilin tol c x k -> in_window c x = true ->
  inject_Z k - tol <= reach c + (1#10).
Proof.
  intros x k K H W. destruct (Ilin_units _ _ _ _ T0 S H) as (y & E & Hy).
  rewrite (window_units _ _ _ Hl S E), in_order_iff in W.
  apply inj_le in K. change (inject_Z 0) with 0 in K. destruct W as [W|W]; lra.
Qed.

Lemma lin_window_no : forall x k, (0 <= k)%Z -> Ilin tol c x k -> in_window c x = false ->
  reach c + (1#10) < inject_Z k + tol.
Proof.
  intros x k K H W. destruct (Ilin_units _ _ _ _ T0 S H) as (y & E & Hy).
  rewrite (window_units _ _ _ Hl S E) in W. apply inj_le in K. change (inject_Z 0) with 0 in K.
  destruct (Qlt_le_dec (reach c + (1#10)) (inject_Z k + tol)) as [|B]; auto.
  assert (W' : in_order (-1#10) y (reach c + (1#10)) = true) by (apply in_order_iff; left; lra).
  congruence.
Qed.

Hypothesis D : 0 <= reach c.

Lemma lin_mono : forall x y j k, Ilin tol c x k -> Ilin tol c y j -> (0 <= j)%Z -> (j < k)%Z ->
  in_window c x = true -> in_window c y = true.
Proof.
  intros x y j k Hx Hy J K W.
  pose proof (lin_window x k ltac:(lia) Hx W) as B.
  destruct (Ilin_units _ _ _ _ T0 S Hy) as (u & E & Hu).
  rewrite (window_units _ _ _ Hl S E), in_order_iff. left.
  apply inj_le in J. change (inject_Z 0) with 0 in J.
  assert (K' : (j + 1 <= k)%Z) by lia. apply inj_le in K'. rewrite inj_plus1 in K'. lra.
Qed.

Lemma lin_low : forall x, Ilin tol c x (-1) -> in_window c x = false.
Proof.
  intros x H. destruct (Ilin_units _ _ _ _ T0 S H) as (y & E & Hy).
  rewrite (window_units _ _ _ Hl S E). apply not_true_is_false. rewrite in_order_iff.
  change (inject_Z (-1)) with (-1) in Hy. intros [A|A]; lra.
Qed.

Lemma lin_start : forall x, Ilin tol c x 0 -> in_window c x = true.
Proof.
  intros x H. destruct (Ilin_units _ _ _ _ T0 S H) as (y & E & Hy).
  rewrite (window_units _ _ _ Hl S E), in_order_iff. change (inject_Z 0) with 0 in Hy. left; lra.
Qed.
End Linear.

(* ---------- log ---------- *)

Lemma bernoulli : forall a, 1 < a -> forall n : nat,
  1 + inject_Z (Z.of_nat n) * (a - 1) <= a ^ Z.of_nat n.
Proof.
  intros a A. induction n as [|n IH].
  - change (a ^ Z.of_nat 0) with 1. change (inject_Z (Z.of_nat 0)) with 0. lra.
  - rewrite Nat2Z.inj_succ. unfold Z.succ. rewrite Qpower_plus by lra.
    rewrite inj_plus1. change (a ^ 1) with a.
    assert (0 <= inject_Z (Z.of_nat n)) by (change 0 with (inject_Z 0); apply inj_le; lia).
    assert (0 <= inject_Z (Z.of_nat n) * (a - 1)) by (apply Qmult_le_0_compat; lra).
    assert (0 <= inject_Z (Z.of_nat n) * (a - 1) * (a - 1)) by (apply Qmult_le_0_compat; lra).
    assert ((1 + inject_Z (Z.of_nat n) * (a - 1)) * a <= a ^ Z.of_nat n * a)
      by (apply Qmult_le_compat_r; lra).
    lra.
Qed.

Lemma power_exceeds : forall a b, 1 < a -> exists N, (0 <= N)%Z /\ b < a ^ N.
Proof.
  intros a b A. destruct (reach_bound (b / (a - 1))) as (N & N1 & HN).
  exists N. split; [lia|]. pose proof (bernoulli a A (Z.to_nat N)) as B.
  rewrite Z2Nat.id in B by lia.
  assert (C : b / (a - 1) * (a - 1) < inject_Z N * (a - 1)) by (apply Qmult_lt_r; lra).
  assert (E : b / (a - 1) * (a - 1) == b) by (field; lra). lra.
Qed.

Definition Ilog (c : swp) (v : Q) (k : Z) : Prop := v == start c * step c ^ k.

Section Log.
Variables (tol : Q) (c : swp).
Hypothesis Hl : lin c = false.
Hypothesis S1 : 1 < step c.
Hypothesis P0 : 0 < start c.
Hypothesis P1 : start c <= stop c.
Hypothesis F1 : 1 < fud c.
Hypothesis F2 : fud c < step c.

Lemma log_stepping : stepping c.
Proof. unfold stepping. rewrite Hl. qcase; auto. lra. Qed.
Lemma log_I0 : Ilog c (start c) 0.
Proof. unfold Ilog. cbn. ring. Qed.
Lemma log_up : forall x k, (0 <= k)%Z -> Ilog c x k -> Ilog c (upv tol c x) (k + 1).
Proof.
  intros x k _ H. unfold Ilog, upv in *. rewrite Hl, H, Qpower_plus by lra.
  change (step c ^ 1) with (step c). ring.
Qed.
Lemma log_dn : forall x k, (0 <= k)%Z -> Ilog c x k -> Ilog c (dnv tol c x) (k - 1).
Proof.
  intros x k _ H. unfold Ilog, dnv in *. unfold Z.sub. rewrite Hl, H, Qpower_plus by lra.
  change (step c ^ (-(1))) with (/ step c). field. lra.
Qed.

Lemma mul_le_l : forall s a b, 0 < s -> (s * a <= s * b <-> a <= b).
Proof. intros. rewrite !(Qmult_comm s). now apply Qmult_le_r. Qed.
Lemma mul_lt_l : forall s a b, 0 < s -> (s * a < s * b <-> a < b).
Proof. intros. rewrite !(Qmult_comm s). now apply Qmult_lt_r. Qed.

Lemma log_order : start c / fud c < start c /\ stop c < stop c * fud c /\ start c < fud c * start c.
Proof.
  assert (A : start c * 1 < start c * fud c) by (apply mul_lt_l; lra).
  assert (B : stop c * 1 < stop c * fud c) by (apply mul_lt_l; lra).
  assert (E : start c / fud c * fud c == start c) by (field; lra).
  repeat split; try lra.
  apply (Qmult_lt_r _ _ (fud c)); lra.
Qed.

Lemma log_window : forall x k, Ilog c x k ->
  (in_window c x = true <-> start c / fud c <= x /\ x <= stop c * fud c).
Proof.
  intros x k _. unfold in_window. rewrite Hl, in_order_iff. pose proof log_order. split.
  - intros [A|A]; lra.
  - intros; left; assumption.
Qed.

Lemma log_bound : exists N, forall x k, (1 <= k)%Z -> (N <= k)%Z -> Ilog c x k -> in_window c x = false.
Proof.
  destruct (power_exceeds (step c) (stop c * fud c / start c) S1) as (N & N0 & HN).
  exists N. intros x k _ KN H. apply not_true_is_false. rewrite (log_window _ _ H).
  unfold Ilog in H. rewrite H. intros [_ A].
  assert (B : step c ^ N <= step c ^ k) by (apply Qpower_le_compat_l; [assumption|lra]).
  apply (mul_le_l (start c)) in B; auto. apply (mul_lt_l (start c)) in HN; auto.
  assert (E : start c * (stop c * fud c / start c) == stop c * fud c) by (field; lra).
  lra.
Qed.

Lemma log_ge : forall x k, (0 <= k)%Z -> Ilog c x k -> start c <= x.
Proof.
  intros x k K H. unfold Ilog in H. rewrite H.
  assert (B : step c ^ 0 <= step c ^ k) by (apply Qpower_le_compat_l; [assumption|lra]).
  apply (mul_le_l (start c)) in B; auto. cbn in B. lra.
Qed.

Lemma log_mono : forall x y j k, Ilog c x k -> Ilog c y j -> (0 <= j)%Z -> (j < k)%Z ->
  in_window c x = true -> in_window c y = true.
Proof.
  intros x y j k Hx Hy J K W. apply (log_window _ _ Hx) in W. apply (log_window _ _ Hy).
  pose proof (log_ge _ _ J Hy). pose proof log_order. split; [lra|].
  unfold Ilog in *. assert (B : step c ^ j <= step c ^ k) by (apply Qpower_le_compat_l; [lia|lra]).
  apply (mul_le_l (start c)) in B; auto. lra.
Qed.

Lemma log_low : forall x, Ilog c x (-1) -> in_window c x = false.
Proof.
  intros x H. apply not_true_is_false. rewrite (log_window _ _ H). intros [A _].
  unfold Ilog in H. rewrite H in A. change (step c ^ (-1)) with (/ step c) in A.
  assert (B : start c / fud c * (fud c * step c) <= start c * / step c * (fud c * step c)).
  { apply Qmult_le_r; [|assumption]. assert (fud c * 0 < fud c * step c) by (apply Qmult_lt_l; lra). lra. }
  assert (E : start c / fud c * (fud c * step c) == start c * step c) by (field; lra).
  assert (E2 : start c * / step c * (fud c * step c) == start c * fud c) by (field; lra).
  assert (start c * fud c < start c * step c) by (apply mul_lt_l; lra). lra.
Qed.
End Log.

(* ---------- AC ---------- *)

Definition a_grid (c : acp) (k : nat) : Q := a_start c + inject_Z (Z.of_nat k) * a_step c.
Definition a_reach (c : acp) : Q := (a_stop c - a_start c) / a_step c.
Definition a_lgrid (c : acp) (k : nat) : Q := a_start c * a_step c ^ Z.of_nat k.

Lemma ac_next_lin : forall c f k, a_lin c = true -> ~ a_step c == 0 -> f == a_grid c k ->
  ac_next c f =
    if in_order 0 (inject_Z (Z.of_nat k)) (a_reach c - (1#100)) then
      (f + a_step c, negb (in_order (inject_Z (Z.of_nat (S k))) 0 (a_reach c)))
    else (f, false).
Proof.
  intros c f k Hl NZ E. unfold ac_next. rewrite Hl.
  rewrite (inord_ext (a_start c) f (a_stop c - a_step c / 100)
     (a_start c + 0 * a_step c) (a_start c + inject_Z (Z.of_nat k) * a_step c)
     (a_start c + (a_reach c - (1#100)) * a_step c)); [|ring|exact E|unfold a_reach; field; auto].
  rewrite inord_aff by assumption.
  rewrite (inord_ext (f + a_step c) (a_start c) (a_stop c)
     (a_start c + inject_Z (Z.of_nat (S k)) * a_step c) (a_start c + 0 * a_step c)
     (a_start c + a_reach c * a_step c)); [|
     rewrite E, Nat2Z.inj_succ; unfold a_grid, Z.succ; rewrite inj_plus1; ring | ring
     |unfold a_reach; field; auto].
  rewrite inord_aff by assumption.
  destruct (in_order 0 (inject_Z (Z.of_nat k)) (a_reach c - (1 # 100))); reflexivity.
Qed.

(* the generic loop: indices k, k+1, ... while the test holds *)
Lemma ac_run : forall c (I : Q -> nat -> Prop) (t : nat -> bool) (N : nat),
  (forall f k, I f k -> t k = true -> exists f', ac_next c f = (f', true) /\ I f' (S k)) ->
  (forall f k, I f k -> t k = false -> snd (ac_next c f) = false) ->
  t N = false ->
  forall d k f, I f k -> (N = k + d)%nat ->
  exists n fs, (forall F, (d < F)%nat -> ac_loop F c f = Some fs) /\
  Forall2 I fs (seq k (S n)) /\ t (k + n)%nat = false /\ (forall j, (j < n)%nat -> t (k + j)%nat = true).
Proof.
  intros c I t N Hs He HN. induction d as [|d IH]; intros k f Hf Hk.
  - exists O, [f]. assert (E : t k = false) by (rewrite Nat.add_0_r in Hk; now subst).
    split; [|split; [repeat constructor; exact Hf|split; [now rewrite Nat.add_0_r|lia]]].
    intros F HF. destruct F; [lia|]. cbn. specialize (He f k Hf E).
    destruct (ac_next c f) as [f' ok]; cbn in He; now subst ok.
  - destruct (t k) eqn:E.
    + destruct (Hs f k Hf E) as (f' & En & If').
      destruct (IH (S k) f' If' ltac:(lia)) as (n & fs & L & P & Tn & Tj).
      exists (S n), (f :: fs). split; [|split; [constructor; assumption|split]].
      * intros F HF. destruct F; [lia|]. cbn [ac_loop]. rewrite En, (L F) by lia. reflexivity.
      * now rewrite <- Nat.add_succ_comm.
      * intros j Hj. destruct j; [now rewrite Nat.add_0_r|]. rewrite <- Nat.add_succ_comm. apply Tj. lia.
    + exists O, [f].
      split; [|split; [repeat constructor; exact Hf|split; [now rewrite Nat.add_0_r|lia]]].
      intros F HF. destruct F; [lia|]. cbn. specialize (He f k Hf E).
      destruct (ac_next c f) as [f' ok]; cbn in He; now subst ok.
Qed.

Lemma ac_lin_run : forall c, a_lin c = true -> ~ a_step c == 0 -> exists n fs F0,
  (forall F, (F0 < F)%nat -> ac_sweep F c = Some fs) /\
  Forall2 (fun f k => f == a_grid c k) fs (seq 0 (S n)) /\
  (a_reach c <= 0 -> n = O) /\
  (0 < a_reach c -> (1 <= n)%nat /\ (n = 1%nat \/ inject_Z (Z.of_nat n) - 1 <= a_reach c - (1#100)) /\
  a_reach c - (1#100) < inject_Z (Z.of_nat n)).
Proof.
  intros c Hl NZ.
  set (t := fun k => in_order 0 (inject_Z (Z.of_nat k)) (a_reach c - (1#100)) &&
                     negb (in_order (inject_Z (Z.of_nat (S k))) 0 (a_reach c))).
  destruct (reach_bound (a_reach c)) as (N & N1 & HN).
  assert (TN : t (Z.to_nat N) = false).
  { unfold t. rewrite Z2Nat.id by lia. apply andb_false_iff; left. apply not_true_is_false.
    rewrite in_order_iff. apply inj_le in N1. change (inject_Z 1) with 1 in N1. intros [A|A]; lra. }
  destruct (ac_run c (fun f k => f == a_grid c k) t (Z.to_nat N)) with (d := Z.to_nat N) (k := O) (f := a_start c)
    as (n & fs & L & P & Tn & Tj); auto.
  - intros f k E Tk. rewrite (ac_next_lin c f k Hl NZ E). unfold t in Tk. apply andb_true_iff in Tk.
    destruct Tk as [-> ->]. exists (f + a_step c). split; [reflexivity|].
    rewrite E. unfold a_grid. rewrite Nat2Z.inj_succ. unfold Z.succ. rewrite inj_plus1. ring.
  - intros f k E Tk. rewrite (ac_next_lin c f k Hl NZ E). unfold t in Tk.
    destruct (in_order 0 (inject_Z (Z.of_nat k)) (a_reach c - (1 # 100))); [|reflexivity].
    cbn in Tk |- *. exact Tk.
  - unfold a_grid. cbn. ring.
  - exists n, fs, (Z.to_nat N). split; [exact L|]. split; [exact P|]. cbn [Nat.add] in Tn, Tj.
    assert (Pos : forall k, 0 <= inject_Z (Z.of_nat k)) by (intros; change 0 with (inject_Z 0); apply inj_le; lia).
    assert (Sk : forall k, inject_Z (Z.of_nat (S k)) == inject_Z (Z.of_nat k) + 1).
    { intros. rewrite Nat2Z.inj_succ. apply inj_plus1. }
    split.
    + intros H. destruct n as [|n]; auto. specialize (Tj O ltac:(lia)). unfold t in Tj.
      apply andb_true_iff in Tj. destruct Tj as [_ B]. apply negb_true_iff in B.
      assert (in_order (inject_Z (Z.of_nat 1)) 0 (a_reach c) = true) by
        (apply in_order_iff; right; cbn; split; [lra|discriminate]). congruence.
    + intros H.
      assert (Sec : forall k, negb (in_order (inject_Z (Z.of_nat (S k))) 0 (a_reach c)) = true).
      { intros. apply negb_true_iff, not_true_is_false. rewrite in_order_iff, Sk. pose proof (Pos k). intros [A|A]; lra. }
      assert (Tk : forall k, t k = in_order 0 (inject_Z (Z.of_nat k)) (a_reach c - (1#100))).
      { intros. unfold t. rewrite Sec. apply andb_true_r. }
      rewrite Tk in Tn.
      assert (n <> O).
      { intros ->. assert (in_order 0 (inject_Z (Z.of_nat 0)) (a_reach c - (1#100)) = true); [|congruence].
        apply in_order_iff. change (inject_Z (Z.of_nat 0)) with 0. destruct (Qlt_le_dec (a_reach c) (1#100)); [right|left]; split; lra. }
      split; [lia|]. split.
      * destruct n as [|[|n]]; auto; [lia|]. right. specialize (Tj (S n) ltac:(lia)).
        rewrite Tk, in_order_iff in Tj. rewrite (Sk (S n)).
        pose proof (Pos n). rewrite Sk in *. destruct Tj as [A|A]; lra.
      * destruct (Qlt_le_dec (a_reach c - (1#100)) (inject_Z (Z.of_nat n))); auto.
        assert (in_order 0 (inject_Z (Z.of_nat n)) (a_reach c - (1#100)) = true); [|congruence].
        apply in_order_iff. left. auto.
Qed.

Lemma ac_log_run : forall c, a_lin c = false -> 1 < a_step c -> 0 < a_start c -> a_start c < a_stop c ->
  1 <= hund c -> exists n fs F0,
  (forall F, (F0 < F)%nat -> ac_sweep F c = Some fs) /\
  Forall2 (fun f k => f == a_lgrid c k) fs (seq 0 (S n)) /\
  (1 <= n)%nat /\ (n = 1%nat \/ a_lgrid c (n - 1) <= a_stop c / hund c) /\
  a_stop c / hund c < a_lgrid c n.
Proof.
  intros c Hl S1 P0 P1 H1.
  set (R := a_stop c / hund c).
  assert (Gs : forall k, a_lgrid c (S k) == a_lgrid c k * a_step c).
  { intros. unfold a_lgrid. rewrite Nat2Z.inj_succ. unfold Z.succ. rewrite Qpower_plus by lra.
    change (a_step c ^ 1) with (a_step c). ring. }
  assert (G0 : a_lgrid c 0 == a_start c) by (unfold a_lgrid; cbn; ring).
  assert (Gm : forall k, a_start c <= a_lgrid c k).
  { intros. unfold a_lgrid. assert (B : a_step c ^ 0 <= a_step c ^ Z.of_nat k)
      by (apply Qpower_le_compat_l; [lia|lra]). cbn in B.
    apply (Qmult_le_r _ _ (a_start c)) in B; auto. lra. }
  assert (Gup : forall k, a_start c < a_lgrid c (S k)).
  { intros. rewrite Gs. pose proof (Gm k).
    assert (a_lgrid c k * 1 < a_lgrid c k * a_step c) by (apply Qmult_lt_l; lra). lra. }
  set (t := fun k => in_order (a_start c) (a_lgrid c k) R).
  destruct (power_exceeds (a_step c) (R / a_start c) S1) as (N & N0 & HN).
  assert (TN : t (Z.to_nat (N + 1)) = false).
  { unfold t. apply not_true_is_false. rewrite in_order_iff.
    assert (A : R < a_lgrid c (Z.to_nat (N + 1))).
    { unfold a_lgrid. rewrite Z2Nat.id by lia.
      assert (B : a_step c ^ N <= a_step c ^ (N + 1)) by (apply Qpower_le_compat_l; [lia|lra]).
      assert (C : R / a_start c * a_start c < a_step c ^ (N + 1) * a_start c) by (apply Qmult_lt_r; lra).
      assert (E : R / a_start c * a_start c == R) by (field; lra). lra. }
    replace (Z.to_nat (N + 1)) with (S (Z.to_nat N)) in * by lia. pose proof (Gup (Z.to_nat N)).
    intros [B|B]; lra. }
  destruct (ac_run c (fun f k => f == a_lgrid c k) t (Z.to_nat (N + 1))) with (d := Z.to_nat (N + 1)) (k := O) (f := a_start c)
    as (n & fs & L & P & Tn & Tj); auto.
  - intros f k E Tk. unfold ac_next. rewrite Hl.
    rewrite (inord_ext (a_start c) f (a_stop c / hund c) (a_start c) (a_lgrid c k) R);
      [|reflexivity|exact E|reflexivity]. fold (t k). rewrite Tk. cbn [negb].
    exists (f * a_step c). split.
    + f_equal. apply negb_true_iff, not_true_is_false. rewrite in_order_iff, E, <- Gs.
      pose proof (Gup k). intros [A|A]; lra.
    + rewrite Gs, E. reflexivity.
  - intros f k E Tk. unfold ac_next. rewrite Hl.
    rewrite (inord_ext (a_start c) f (a_stop c / hund c) (a_start c) (a_lgrid c k) R);
      [|reflexivity|exact E|reflexivity]. fold (t k). rewrite Tk. reflexivity.
  - now rewrite G0.
  - exists n, fs, (Z.to_nat (N + 1)). split; [exact L|]. split; [exact P|]. cbn [Nat.add] in Tn, Tj.
    assert (n <> O).
    { intros ->. assert (t O = true); [|congruence]. apply in_order_iff. rewrite G0.
      destruct (Qlt_le_dec R (a_start c)); [right|left]; split; lra. }
    split; [lia|]. fold R. split.
    + destruct n as [|[|n]]; auto; [lia|]. right. specialize (Tj (S n) ltac:(lia)).
      apply in_order_iff in Tj. cbn [Nat.sub]. pose proof (Gup n). destruct Tj as [A|A]; lra.
    + destruct (Qlt_le_dec R (a_lgrid c n)); auto.
      assert (t n = true); [|congruence]. apply in_order_iff. left. split; [apply Gm|assumption].
Qed.
