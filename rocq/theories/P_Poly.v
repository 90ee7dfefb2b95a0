(* C31, C32, C37: derivative estimates, first order forms, polynomial behaviour *)
Require Import ZArith QArith Qpower Lqa Lia List Bool Factorial.
Require Import Verif.Qnum Verif.Poly_Model.
Import ListNotations.
Local Open Scope Q_scope.

(* ---------- polynomials ---------- *)

(* the sum of a_i x^i, i from k on *)
Fixpoint psum (k : nat) (a : list Q) (x : Q) : Q :=
  match a with [] => 0 | c :: r => c * x ^ Z.of_nat k + psum (S k) r x end.
(* the value at x of the polynomial with coefficients a *)
Definition peval (a : list Q) (x : Q) : Q := psum 0 a x.
(* the coefficients of the derivative *)
Fixpoint dcoef (k : nat) (a : list Q) : list Q :=
  match a with [] => [] | c :: r => inject_Z (Z.of_nat k) * c :: dcoef (S k) r end.
Definition pderiv (a : list Q) : list Q := match a with [] => [] | _ :: r => dcoef 1 r end.
(* the j-th derivative *)
Fixpoint pderivs (j : nat) (a : list Q) : list Q :=
  match j with O => a | S j' => pderivs j' (pderiv a) end.

Lemma pow_S : forall x k, x ^ Z.of_nat (S k) == x * x ^ Z.of_nat k.
Proof.
  intros x k. destruct k as [|k]; [cbn; ring|].
  rewrite !Nat2Z.inj_succ. rewrite <- Z.add_1_l. rewrite Qpower_plus' by lia. reflexivity.
Qed.

Lemma psum_S : forall a k x, psum (S k) a x == x * psum k a x.
Proof.
  induction a as [|c r IH]; intros k x; cbn [psum]; [ring|]. rewrite IH, pow_S. ring.
Qed.

Lemma peval_cons : forall c r x, peval (c :: r) x == c + x * peval r x.
Proof. intros. unfold peval. cbn [psum]. rewrite psum_S. cbn. ring. Qed.

(* ---------- divided differences ---------- *)

(* the divided difference of f over t(i-d), ..., t(i) *)
Fixpoint DD (f : Q -> Q) (t : nat -> Q) (d i : nat) : Q :=
  match d with
  | O => f (t i)
  | S d' => (DD f t d' (i - 1) - DD f t d' i) / (t (i - d)%nat - t i)
  end.

Definition distinct (m : nat) (t : nat -> Q) : Prop :=
  forall i j, (i < j)%nat -> (j <= m)%nat -> ~ t i == t j.

Lemma DD_ext : forall f g t, (forall x, f x == g x) -> forall d i, DD f t d i == DD g t d i.
Proof.
  intros f g t H d; induction d as [|d IH]; intros i; cbn [DD]; [apply H|]. rewrite !IH. reflexivity.
Qed.

Lemma DD_mulx : forall f t m, distinct m t -> forall d i, (S d <= i)%nat -> (i <= m)%nat ->
  DD (fun x => x * f x) t (S d) i == t i * DD f t (S d) i + DD f t d (i - 1).
Proof.
  intros f t m Ht. induction d as [|d IH]; intros i Hd Hi.
  - cbn [DD]. assert (~ t (i - 1)%nat - t i == 0).
    { intro E. apply (Ht (i - 1)%nat i); [lia|lia|]. lra. }
    field. assumption.
  - assert (Nz : ~ t (i - S (S d))%nat - t i == 0).
    { intro E. apply (Ht (i - S (S d))%nat i); [lia|lia|]. lra. }
    assert (Nz2 : ~ t (i - S (S d))%nat - t (i - 1)%nat == 0).
    { intro E. apply (Ht (i - S (S d))%nat (i - 1)%nat); [lia|lia|]. lra. }
    change (DD (fun x => x * f x) t (S (S d)) i) with
      ((DD (fun x => x * f x) t (S d) (i - 1) - DD (fun x => x * f x) t (S d) i) / (t (i - S (S d))%nat - t i)).
    rewrite (IH (i - 1)%nat) by lia. rewrite (IH i) by lia.
    assert (E : DD f t d (i - 1 - 1) == DD f t (S d) (i - 1) * (t (i - S (S d))%nat - t (i - 1)%nat) + DD f t d (i - 1)).
    { cbn [DD]. replace (i - 1 - S d)%nat with (i - S (S d))%nat by lia. field. assumption. }
    rewrite E.
    change (DD f t (S (S d)) i) with ((DD f t (S d) (i - 1) - DD f t (S d) i) / (t (i - S (S d))%nat - t i)).
    field. assumption.
Qed.

Lemma DD_const : forall c t d i, DD (fun _ => c) t (S d) i == 0.
Proof.
  intros c t; induction d as [|d IH]; intros i; [cbn [DD]; unfold Qdiv; ring|].
  change (DD (fun _ => c) t (S (S d)) i) with
    ((DD (fun _ => c) t (S d) (i - 1) - DD (fun _ => c) t (S d) i) / (t (i - S (S d))%nat - t i)).
  rewrite !IH. unfold Qdiv. ring.
Qed.

Lemma DD_add : forall f g t d i, DD (fun x => f x + g x) t d i == DD f t d i + DD g t d i.
Proof.
  intros f g t; induction d as [|d IH]; intros i; cbn [DD]; [reflexivity|]. rewrite !IH. unfold Qdiv. ring.
Qed.

Lemma DD_zero : forall t d i, DD (fun _ => 0) t d i == 0.
Proof. intros t d i. destruct d; [reflexivity|]. apply DD_const. Qed.

(* for a polynomial of degree at most d the divided difference is the coefficient of x^d *)
Lemma DD_poly : forall t m, distinct m t -> forall a d i, (length a <= S d)%nat -> (d <= i)%nat -> (i <= m)%nat ->
  DD (peval a) t d i == nth d a 0.
Proof.
  intros t m Ht. induction a as [|c r IH]; intros d i Hl Hd Hi.
  - rewrite (DD_ext (peval []) (fun _ => 0) t (fun _ => Qeq_refl _)), DD_zero. now destruct d.
  - rewrite (DD_ext _ (fun x => (fun _ => c) x + (fun x => x * peval r x) x) t (peval_cons c r)), DD_add.
    destruct d as [|d].
    + cbn [length] in Hl. assert (r = []) by (destruct r; [reflexivity|cbn in Hl; lia]). subst r.
      cbn [DD nth]. unfold peval; cbn [psum]. ring.
    + rewrite DD_const, (DD_mulx (peval r) t m Ht) by lia. cbn [nth]. cbn [length] in Hl.
      rewrite (IH (S d) i) by lia. rewrite (IH d (i - 1)%nat) by lia.
      rewrite (nth_overflow r 0) by lia. ring.
Qed.

(* ---------- the loops compute i! times the divided difference ---------- *)

Definition fct (n : nat) : Q := inject_Z (Z.of_nat (fact n)).

Lemma fct_S : forall n, fct (S n) == inject_Z (Z.of_nat (S n)) * fct n.
Proof.
  intros. unfold fct. rewrite <- inject_Z_mult, <- Nat2Z.inj_mul. reflexivity.
Qed.

Lemma dd_inner_spec : forall t d m c j,
  (1 <= d)%nat ->
  dd_inner m d t c j =
    if (d <=? j)%nat && (j <? d + m)%nat then
      inject_Z (Z.of_nat d) * (c (j - 1)%nat - c j) / (t (j - d)%nat - t j)
    else c j.
Proof.
  intros t d m; induction m as [|m IH]; intros c j Hd; cbn [dd_inner].
  - destruct (Nat.leb_spec d j); destruct (Nat.ltb_spec j (d + 0)); try lia; reflexivity.
  - rewrite IH by assumption. unfold upd.
    destruct (Nat.leb_spec d j); destruct (Nat.ltb_spec j (d + m)); destruct (Nat.ltb_spec j (d + S m));
      cbn [andb]; try lia;
      destruct (Nat.eqb_spec j (d + m)); destruct (Nat.eqb_spec (j - 1) (d + m)); try lia; subst; reflexivity.
Qed.

Lemma dd_outer_spec : forall f t n k, (k < n)%nat \/ (k = 0)%nat -> forall j, (j < n)%nat ->
  dd_outer k n t (fun i => f (t i)) j == fct (Nat.min j k) * DD f t (Nat.min j k) j.
Proof.
  intros f t n; induction k as [|k IH]; intros Hk j Hj.
  - rewrite Nat.min_0_r. cbn. unfold fct; cbn. ring.
  - cbn [dd_outer]. rewrite dd_inner_spec by lia.
    destruct (Nat.leb_spec (S k) j) as [L|L].
    + destruct (Nat.ltb_spec j (S k + (n - S k))) as [L2|L2]; [|lia]. cbn [andb].
      rewrite !IH by lia.
      rewrite (Nat.min_r (j - 1) k) by lia. rewrite (Nat.min_r j k) by lia. rewrite (Nat.min_r j (S k)) by lia.
      rewrite fct_S. cbn [DD]. unfold Qdiv. ring.
    + cbn [andb]. rewrite IH by lia. rewrite !Nat.min_l by lia. reflexivity.
Qed.

Lemma pderivs_nil : forall j, pderivs j [] = [].
Proof. induction j; cbn; auto. Qed.

Lemma dcoef_nth : forall a k i, nth i (dcoef k a) 0 == inject_Z (Z.of_nat (k + i)) * nth i a 0.
Proof.
  induction a as [|c r IH]; intros k i; cbn [dcoef].
  - destruct i; cbn [nth]; ring.
  - destruct i; cbn [nth]; [now rewrite Nat.add_0_r|]. rewrite IH. now rewrite Nat.add_succ_comm.
Qed.

Lemma dcoef_length : forall a k, length (dcoef k a) = length a.
Proof. induction a; intros; cbn; auto. Qed.

Lemma pderiv_nth : forall a i, nth i (pderiv a) 0 == inject_Z (Z.of_nat (S i)) * nth (S i) a 0.
Proof.
  intros [|c r] i; cbn [pderiv].
  - destruct i; cbn [nth]; ring.
  - rewrite dcoef_nth. cbn [nth]. now rewrite Nat.add_1_l.
Qed.

Lemma pderiv_length : forall a, length (pderiv a) = (length a - 1)%nat.
Proof. intros [|c r]; cbn [pderiv length]; [reflexivity|]. rewrite dcoef_length. lia. Qed.

(* the j-th derivative of a polynomial of degree at most j is the constant j! a_j *)
Lemma pderivs_const : forall j a x, (length a <= S j)%nat -> peval (pderivs j a) x == fct j * nth j a 0.
Proof.
  induction j as [|j IH]; intros a x Hl.
  - destruct a as [|c [|c' r]]; cbn [length] in Hl; try lia; cbn [pderivs nth]; unfold peval, fct; cbn; ring.
  - cbn [pderivs]. rewrite IH by (rewrite pderiv_length; lia). rewrite pderiv_nth, fct_S. ring.
Qed.

(* C31: entry j is the exact j-th derivative for data from any polynomial of degree at most j,
   at any distinct times; only the first j+1 times need to be distinct *)
Theorem C31_derivatives_exact : forall n t a j x, (j < n)%nat -> (length a <= S j)%nat ->
  (forall p q, (p < q)%nat -> (q <= j)%nat -> ~ t p == t q) ->
  derivatives (fun i => peval a (t i)) n t j == peval (pderivs j a) x.
Proof.
  intros n t a j x Hj Hl Ht. unfold derivatives. rewrite dd_outer_spec by lia.
  rewrite Nat.min_l by lia. rewrite (DD_poly t j Ht) by lia. now rewrite pderivs_const.
Qed.

(* entry j does not depend on data or times beyond j (at the start of a simulation these
   repeat, and give no number) *)
Theorem C31_uses_first_points : forall n n' t t' c c' j, (j < n)%nat -> (j < n')%nat ->
  (forall i, (i <= j)%nat -> t i = t' i /\ c i = c' i) ->
  derivatives c n t j = derivatives c' n' t' j.
Proof.
  intros n n' t t' c c' j Hj Hj' H. unfold derivatives.
  assert (G : forall k k' i, (i <= j)%nat -> (k < n)%nat -> (k' < n')%nat ->
            ((i <= k)%nat /\ (i <= k')%nat \/ k = k') ->
            dd_outer k n t c i = dd_outer k' n' t' c' i).
  { induction k as [|k IH]; intros k' i Hi Hk Hk' Hc.
    - induction k' as [|k' IH']; [apply H; assumption|].
      cbn [dd_outer]. rewrite dd_inner_spec by lia. destruct (Nat.leb_spec (S k') i); [lia|].
      cbn [andb]. apply IH'; lia.
    - cbn [dd_outer]. rewrite dd_inner_spec by lia.
      destruct (Nat.leb_spec (S k) i) as [L|L].
      + destruct (Nat.ltb_spec i (S k + (n - S k))); [|lia]. cbn [andb].
        destruct k' as [|k']; [lia|]. cbn [dd_outer]. rewrite dd_inner_spec by lia.
        destruct (Nat.eq_dec k k') as [<- |NE].
        * destruct (Nat.leb_spec (S k) i); [|lia]. destruct (Nat.ltb_spec i (S k + (n' - S k))); [|lia]. cbn [andb].
          rewrite (IH k (i - 1)%nat) by lia. rewrite (IH k i) by lia.
          rewrite (proj1 (H (i - S k)%nat ltac:(lia))), (proj1 (H i Hi)). reflexivity.
        * assert (i = S k) by lia. subst i. destruct (Nat.leb_spec (S k') (S k)) as [|_]; [lia|]. cbn [andb].
          assert (Q : forall m, (m < k')%nat -> forall z, dd_outer (S m) n' t' c' z = dd_inner (n' - S m) (S m) t' (dd_outer m n' t' c') z) by reflexivity.
          (* go down to k'' = S k *)
          assert (R : forall m, (S k <= m)%nat -> (m <= k')%nat -> dd_outer m n' t' c' (S k) = dd_outer (S k) n' t' c' (S k)).
          { induction m as [|m IHm]; intros H1 H2; [lia|].
            destruct (Nat.eq_dec (S m) (S k)) as [-> |]; [reflexivity|].
            cbn [dd_outer]. rewrite dd_inner_spec by lia. destruct (Nat.leb_spec (S m) (S k)); [lia|]. cbn [andb].
            apply IHm; lia. }
          rewrite (R k') by lia. cbn [dd_outer]. rewrite dd_inner_spec by lia.
          destruct (Nat.leb_spec (S k) (S k)); [|lia]. destruct (Nat.ltb_spec (S k) (S k + (n' - S k))); [|lia]. cbn [andb].
          rewrite (IH k (S k - 1)%nat) by lia. rewrite (IH k (S k)) by lia.
          rewrite (proj1 (H (S k - S k)%nat ltac:(lia))), (proj1 (H (S k) Hi)). reflexivity.
      + cbn [andb]. destruct (Nat.eq_dec (S k) k') as [<- |NE].
        * cbn [dd_outer]. rewrite dd_inner_spec by lia. destruct (Nat.leb_spec (S k) i); [lia|]. cbn [andb].
          apply IH; lia.
        * apply IH; lia. }
  apply G; lia.
Qed.

(* ---------- C32 ---------- *)

(* the straight line that a form denotes, as a function of the argument z *)
Definition lineF (p : FPOLY1) (z : Q) : Q := F_f0 p + F_f1 p * (z - F_x p).
Definition lineC (p : CPOLY1) (z : Q) : Q := C_c0 p + C_c1 p * z.
Definition sameF (p q : FPOLY1) : Prop := F_x p == F_x q /\ F_f0 p == F_f0 q /\ F_f1 p == F_f1 q.
Definition sameC (p q : CPOLY1) : Prop := C_x p == C_x q /\ C_c0 p == C_c0 q /\ C_c1 p == C_c1 q.

Theorem C32_round_trip : forall p q,
  sameF (FPOLY1_of (CPOLY1_of p)) p /\ sameC (CPOLY1_of (FPOLY1_of q)) q /\
  (forall z, lineC (CPOLY1_of p) z == lineF p z) /\ (forall z, lineF (FPOLY1_of q) z == lineC q z) /\
  lineF p (F_x p) == F_f0 p /\ lineC q (C_x q) == C_f0 q.
Proof.
  intros [x f0 f1] [y c0 c1].
  unfold sameF, sameC, lineF, lineC, CPOLY1_of, FPOLY1_of, F_c0, F_c1, C_f0, C_f1; cbn.
  repeat split; try reflexivity; intros; ring.
Qed.

Theorem C32_scale_add : forall p q r s z,
  lineF (F_scale p s) z == s * lineF p z /\ lineC (C_scale r s) z == s * lineC r z /\
  lineF (F_addc p s) z == lineF p z + s /\ lineF (F_neg p) z == - lineF p z /\
  lineF (F_rsub s p) z == s - lineF p z /\
  (F_x p = F_x q -> lineF (F_add p q) z == lineF p z + lineF q z).
Proof.
  intros [x f0 f1] [y g0 g1] [u c0 c1] s z.
  unfold lineF, lineC, F_scale, C_scale, F_addc, F_neg, F_rsub, F_add; cbn.
  repeat split; try ring. cbn. intros ->. ring.
Qed.

(* the form of a product has the product of the values, and should have the slope
   f1*s0 + f0*s1; the code gives that only when the second value is 1 (or the first value or
   second slope 0) *)
Theorem C32_product_partial : forall p s,
  F_f0 (F_mul p s) == F_f0 p * F_f0 s /\
  (F_f0 s == 1 \/ F_f0 p == 0 \/ F_f1 s == 0 <->
   F_f1 (F_mul p s) == F_f1 p * F_f0 s + F_f0 p * F_f1 s).
Proof.
  intros [x f0 f1] [y g0 g1]. unfold F_mul, F_scale; cbn. split; [reflexivity|]. split.
  - intros [H|[H|H]]; rewrite H; ring.
  - intros H. assert (E : f0 * ((g0 - 1) * g1) == 0) by lra.
    apply Qmult_integral in E. destruct E as [E|E]; [tauto|].
    apply Qmult_integral in E. destruct E as [E|E]; [left; lra|tauto].
Qed.

Theorem C32_product_refuted : exists p s, F_x p == F_x s /\
  ~ F_f1 (F_mul p s) == F_f1 p * F_f0 s + F_f0 p * F_f1 s.
Proof. exists (mkF 1 1 1), (mkF 1 2 1). split; [reflexivity|]. vm_compute. discriminate. Qed.

(* ---------- C37 ---------- *)

Lemma skipn_nth : forall (c : list Q) i, (i < length c)%nat -> skipn i c = nth i c 0 :: skipn (S i) c.
Proof.
  induction c as [|a c IH]; intros i Hi; [cbn in Hi; lia|]. destruct i; [reflexivity|].
  cbn [skipn nth]. apply IH. cbn in Hi; lia.
Qed.

Lemma poly_loop_spec : forall c x i f0 f1, (i < length c)%nat ->
  f0 == x * peval (skipn (S i) c) x ->
  f1 == peval (dcoef (S i) (skipn (S i) c)) x ->
  fst (poly_loop i c x f0 f1) == x * peval (skipn 1 c) x /\
  snd (poly_loop i c x f0 f1) == peval (dcoef 1 (skipn 1 c)) x.
Proof.
  intros c x; induction i as [|i IH]; intros f0 f1 Hi H0 H1; cbn [poly_loop]; [now split|].
  apply IH; [lia| |].
  - rewrite (skipn_nth c (S i)) by lia. rewrite peval_cons, H0. ring.
  - rewrite (skipn_nth c (S i)) by lia. cbn [dcoef]. rewrite peval_cons, H1. ring.
Qed.

(* without limits: value and slope are those of the polynomial *)
Theorem C37_value_and_slope : forall c mn mx x, c <> [] -> mn <= peval c x <= mx ->
  exists p, poly_eval c false mn mx x = Some p /\ F_x p = x /\
    F_f0 p == peval c x /\ F_f1 p == peval (pderiv c) x.
Proof.
  intros c mn mx x Hc Hb. destruct c as [|c0 r]; [congruence|].
  unfold poly_eval.
  destruct (poly_loop (length (c0 :: r) - 1) (c0 :: r) x 0 0) as [g0 g1] eqn:E.
  assert (HL : (length (c0 :: r) - 1 < length (c0 :: r))%nat) by (cbn; lia).
  destruct (poly_loop_spec (c0 :: r) x (length (c0 :: r) - 1) 0 0 HL) as [A B].
  { replace (S (length (c0 :: r) - 1)) with (length (c0 :: r)) by (cbn; lia). rewrite skipn_all. unfold peval; cbn. ring. }
  { replace (S (length (c0 :: r) - 1)) with (length (c0 :: r)) by (cbn; lia). rewrite skipn_all. reflexivity. }
  rewrite E in A, B. cbn [fst snd skipn] in A, B.
  assert (V : g0 + c0 == peval (c0 :: r) x) by (rewrite peval_cons, A; ring).
  cbn [andb]. destruct (qltb_spec mx (g0 + c0)); [lra|]. destruct (qltb_spec (g0 + c0) mn); [lra|].
  eexists. split; [reflexivity|]. cbn. auto.
Qed.

(* with limits and absolute value: always within the limits, zero slope when clamped *)
Theorem C37_limits : forall c a mn mx x, c <> [] -> mn <= mx ->
  exists p, poly_eval c a mn mx x = Some p /\ mn <= F_f0 p <= mx /\
    let v := if a && qltb (peval c x) 0 then - peval c x else peval c x in
    let s := if a && qltb (peval c x) 0 then - peval (pderiv c) x else peval (pderiv c) x in
    (mn <= v <= mx -> F_f0 p == v /\ F_f1 p == s) /\
    (mx < v -> F_f0 p == mx /\ F_f1 p == 0) /\
    (v < mn -> F_f0 p == mn /\ F_f1 p == 0).
Proof.
  intros c a mn mx x Hc Hb. destruct c as [|c0 r]; [congruence|].
  unfold poly_eval.
  destruct (poly_loop (length (c0 :: r) - 1) (c0 :: r) x 0 0) as [g0 g1] eqn:E.
  assert (HL : (length (c0 :: r) - 1 < length (c0 :: r))%nat) by (cbn; lia).
  destruct (poly_loop_spec (c0 :: r) x (length (c0 :: r) - 1) 0 0 HL) as [A B].
  { replace (S (length (c0 :: r) - 1)) with (length (c0 :: r)) by (cbn; lia). rewrite skipn_all. unfold peval; cbn. ring. }
  { replace (S (length (c0 :: r) - 1)) with (length (c0 :: r)) by (cbn; lia). rewrite skipn_all. reflexivity. }
  rewrite E in A, B. cbn [fst snd skipn] in A, B.
  assert (Vq : g0 + c0 == peval (c0 :: r) x) by (rewrite peval_cons, A; ring).
  set (P := peval (c0 :: r) x) in *. cbn [pderiv]. set (D := peval (dcoef 1 r) x) in *.
  assert (Cq : qltb (g0 + c0) 0 = qltb P 0).
  { destruct (qltb_spec (g0 + c0) 0), (qltb_spec P 0); auto; lra. }
  rewrite Cq. destruct (a && qltb P 0).
  - destruct (qltb_spec mx (- (g0 + c0))); [|destruct (qltb_spec (- (g0 + c0)) mn)];
      (eexists; split; [reflexivity|]; cbn [F_f0 F_f1]; cbv zeta; repeat split; intros; lra).
  - destruct (qltb_spec mx (g0 + c0)); [|destruct (qltb_spec (g0 + c0) mn)];
      (eexists; split; [reflexivity|]; cbn [F_f0 F_f1]; cbv zeta; repeat split; intros; lra).
Qed.

(* with no coefficients the loop runs outside the vector *)
Theorem C37_no_coefficients_refuted : forall a mn mx x, poly_eval [] a mn mx x = None.
Proof. reflexivity. Qed.

(* ---------- cases ---------- *)

Definition tt5 (i : nat) : Q := nth i [7; 5; 4; 2#1; 1] 0.
Example C31_case : (forall p q, (p < q)%nat -> (q <= 3)%nat -> ~ tt5 p == tt5 q) /\
  derivatives (fun i => peval [1; 2; 3; 4] (tt5 i)) 5 tt5 3 == 24.
Proof.
  split; [|vm_compute; reflexivity].
  intros p q Hp Hq. destruct p as [|[|[|p]]]; destruct q as [|[|[|[|q]]]]; try lia; vm_compute; discriminate.
Qed.

Example C32_case : sameC (CPOLY1_of (mkF 2 5 3)) (mkC 2 (-1) 3) /\
  sameF (F_add (mkF 2 5 3) (mkF 2 1 (-1))) (mkF 2 6 2).
Proof. repeat split; vm_compute; reflexivity. Qed.

Example C37_case : exists p q, poly_eval [1; -3; 2] false (-10) 10 2 = Some p /\ F_f0 p == 3 /\ F_f1 p == 5 /\
  poly_eval [1; -3; 2] true 0 (1#2) 3 = Some q /\ F_f0 q == 1#2 /\ F_f1 q == 0.
Proof.
  eexists. eexists. split; [reflexivity|]. split; [vm_compute; reflexivity|]. split; [vm_compute; reflexivity|].
  split; [reflexivity|]. split; vm_compute; reflexivity.
Qed.

Print Assumptions C31_derivatives_exact.
Print Assumptions C31_uses_first_points.
Print Assumptions C32_round_trip.
Print Assumptions C32_scale_add.
Print Assumptions C32_product_partial.
Print Assumptions C32_product_refuted.
Print Assumptions C37_value_and_slope.
Print Assumptions C37_limits.
Print Assumptions C37_no_coefficients_refuted.
