(* The arithmetic of ftos: powers of ten, digits of a fraction, scaling and rounding. *)
Require Import ZArith QArith Qround Qpower Qabs List Ascii String Bool Lia Lqa.
Require Import ZifyBool.
Require Import Verif.Loops Verif.Wmatch_Model Verif.CS_Model Verif.Decimal_Text Verif.Qnum Verif.Measure_Model Verif.Ftos_Model Verif.P_Number.
Import ListNotations.
Local Open Scope Q_scope.

(* powers of ten (proof vocabulary) *)
Notation T := (Qpower 10).
Lemma T_pos : forall k, 0 < T k.
Proof. intros k. apply Qpower_0_lt. reflexivity. Qed.
Lemma T_add : forall a b, T (a + b) == T a * T b.
Proof. intros a b. apply Qpower_plus. discriminate. Qed.
Lemma T_succ : forall k, T (k + 1) == 10 * T k.
Proof. intros k. rewrite T_add. change (T 1) with 10. ring. Qed.
Lemma T_int : forall k, (0 <= k)%Z -> T k == inject_Z (10 ^ k).
Proof. intros k H. change 10 with (inject_Z 10). symmetry. apply Qpower.Zpower_Qpower. exact H. Qed.
Lemma T_le : forall a b, (a <= b)%Z -> T a <= T b.
Proof.
  intros a b H. replace b with (a + (b - a))%Z by lia. rewrite T_add, (T_int (b - a)) by lia.
  rewrite <- (Qmult_1_r (T a)) at 1. apply Qmult_le_l; [apply T_pos|]. change 1 with (inject_Z 1). rewrite <- Zle_Qle.
  pose proof (Z.pow_pos_nonneg 10 (b - a)). lia.
Qed.
Lemma T_lt_inv : forall a b, T a < T b -> (a < b)%Z.
Proof. intros a b H. destruct (Z_lt_le_dec a b) as [L|L]; [exact L|]. apply T_le in L. lra. Qed.
Lemma decade_unique : forall x j k, T j <= x < T (j + 1) -> T k <= x < T (k + 1) -> j = k.
Proof.
  intros x j k [A B] [C D]. assert (j < k + 1)%Z by (apply T_lt_inv; lra). assert (k < j + 1)%Z by (apply T_lt_inv; lra). lia.
Qed.

(* floor *)
Lemma floor_unique : forall q z, inject_Z z <= q -> q < inject_Z (z + 1) -> Qfloor q = z.
Proof.
  intros q z H1 H2. pose proof (Qfloor_le q) as A. pose proof (Qlt_floor q) as B.
  assert (inject_Z (Qfloor q) < inject_Z (z + 1)) as C by lra. assert (inject_Z z < inject_Z (Qfloor q + 1)) as D by lra.
  rewrite <- Zlt_Qlt in C, D. lia.
Qed.
Lemma floor_range : forall q a b, inject_Z a <= q -> q < inject_Z b -> (a <= Qfloor q < b)%Z.
Proof.
  intros q a b H1 H2. pose proof (Qfloor_le q) as A. pose proof (Qlt_floor q) as B.
  assert (inject_Z (Qfloor q) < inject_Z b) as C by lra. assert (inject_Z a < inject_Z (Qfloor q + 1)) as D by lra.
  rewrite <- Zlt_Qlt in C, D. lia.
Qed.
Lemma floor_int : forall z, Qfloor (inject_Z z) = z.
Proof. intros z. apply Qfloor_Z. Qed.

(* the digits of a fraction *)
Fixpoint digs (m : nat) (a : Q) : list ascii :=
  match m with
  | O => []
  | S m' => digit_char (Qfloor (a * 10)) :: digs m' (a * 10 - inject_Z (Qfloor (a * 10)))
  end.
Definition frac (a : Q) : Prop := 0 <= a < 1.
Lemma frac_step : forall a, frac a -> (0 <= Qfloor (a * 10) <= 9)%Z /\ frac (a * 10 - inject_Z (Qfloor (a * 10))).
Proof.
  intros a [H1 H2]. split.
  - pose proof (floor_range (a * 10) 0 10). change (inject_Z 0) with 0 in H. change (inject_Z 10) with 10 in H. lapply H; [|lra].
    intros X. specialize (X ltac:(lra)). lia.
  - pose proof (Qfloor_le (a * 10)). pose proof (Qlt_floor (a * 10)) as B. rewrite inject_Z_plus in B. change (inject_Z 1) with 1 in B. split; lra.
Qed.
Lemma digs_length : forall m a, List.length (digs m a) = m.
Proof. induction m as [|m IH]; intros a; cbn [digs List.length]; [reflexivity|now rewrite IH]. Qed.
Lemma digs_digits : forall m a, frac a -> digits (digs m a).
Proof.
  induction m as [|m IH]; intros a H; cbn [digs]; [constructor|]. destruct (frac_step a H) as [A B].
  constructor; [now apply digit_char_ok|now apply IH].
Qed.
Lemma pow10_S : forall m, (10 ^ Z.of_nat (S m) = 10 * 10 ^ Z.of_nat m)%Z.
Proof. intros m. rewrite Nat2Z.inj_succ, Z.pow_succ_r by lia. reflexivity. Qed.
Lemma pow10_pos : forall m, (0 < 10 ^ Z.of_nat m)%Z.
Proof. intros m. apply Z.pow_pos_nonneg; lia. Qed.
Lemma floor_add : forall z q, Qfloor (inject_Z z + q) = (z + Qfloor q)%Z.
Proof.
  intros z q. apply floor_unique.
  - rewrite inject_Z_plus. pose proof (Qfloor_le q). lra.
  - rewrite !inject_Z_plus. pose proof (Qlt_floor q) as B. rewrite inject_Z_plus in B. lra.
Qed.
Lemma digs_value : forall m a, frac a -> value (digs m a) = Qfloor (a * inject_Z (10 ^ Z.of_nat m)).
Proof.
  induction m as [|m IH]; intros a H; cbn [digs].
  - change (inject_Z (10 ^ Z.of_nat 0)) with 1. symmetry. apply floor_unique; destruct H; change (inject_Z (value [])) with 0; change (inject_Z (value [] + 1)) with 1; lra.
  - destruct (frac_step a H) as [A B]. rewrite value_cons, IH, digs_length by assumption.
    destruct (digit_char_ok (Qfloor (a * 10)) A) as [_ ->]. rewrite <- floor_add. apply Qfloor_comp.
    rewrite pow10_S, !inject_Z_mult. change (inject_Z 10) with 10. ring.
Qed.
Lemma digs_comp : forall m a b, a == b -> digs m a = digs m b.
Proof.
  induction m as [|m IH]; intros a b H; cbn [digs]; [reflexivity|].
  assert (E : Qfloor (a * 10) = Qfloor (b * 10)) by (apply Qfloor_comp; now rewrite H). rewrite E. f_equal. apply IH. now rewrite H.
Qed.
Lemma digit_inj : forall a b, In a (str "0123456789") -> In b (str "0123456789") -> (code a - 48 = code b - 48)%Z -> a = b.
Proof.
  intros a b Ha Hb. cbn in Ha, Hb. intros E.
  repeat destruct Ha as [<-|Ha]; try contradiction; repeat destruct Hb as [<-|Hb]; try contradiction; try reflexivity; vm_compute in E; discriminate E.
Qed.
Lemma value_bound : forall l, digits l -> (0 <= value l < 10 ^ Z.of_nat (List.length l))%Z.
Proof.
  induction l as [|c l IH]; intros H; [split; reflexivity|]. inversion_clear H as [|? ? Hc Hl]. specialize (IH Hl).
  rewrite value_cons. cbn [List.length]. rewrite pow10_S. assert (0 <= code c - 48 <= 9)%Z; [|nia].
  cbn in Hc. repeat destruct Hc as [<-|Hc]; try contradiction; vm_compute; split; discriminate.
Qed.
(* digits of the same length and value are the same *)
Lemma value_inj : forall a b, digits a -> digits b -> List.length a = List.length b -> value a = value b -> a = b.
Proof.
  induction a as [|c a IH]; intros [|d b] Ha Hb L E; try discriminate L; [reflexivity|].
  inversion_clear Ha as [|? ? Hc Ha']. inversion_clear Hb as [|? ? Hd Hb']. injection L as L.
  rewrite !value_cons, L in E. pose proof (value_bound a Ha') as A. pose proof (value_bound b Hb') as B. rewrite L in A.
  pose proof (pow10_pos (List.length b)). assert (code c - 48 = code d - 48)%Z by nia. f_equal; [now apply digit_inj|].
  apply IH; try assumption. nia.
Qed.

(* the scaling loops *)
Lemma T3 : forall n, T (3 * Z.of_nat (S n)) == 1000 * T (3 * Z.of_nat n).
Proof. intros n. replace (3 * Z.of_nat (S n))%Z with (3 + 3 * Z.of_nat n)%Z by lia. rewrite T_add. change (T 3) with 1000. reflexivity. Qed.
Lemma scale_up_ok : forall n num e, 0 < num -> 1 <= num * T (3 * Z.of_nat n) ->
  exists m k, scale_up (S n) num e = Some (m, (e - 3 * k)%Z) /\ m == num * T (3 * k) /\ 1 # 1000 <= m /\ (k = 0%Z \/ m < 1).
Proof.
  induction n as [|n IH]; intros num e P H; cbn [scale_up]; destruct (qltb_spec num (1 # 1000)) as [L|L].
  - exfalso. change (T (3 * Z.of_nat 0)) with 1 in H. lra.
  - exists num, 0%Z. split; [do 2 f_equal; lia|]. change (T (3 * 0)) with 1. repeat split; [ring|lra|now left].
  - destruct (IH (num * 1000) (e - 3)%Z) as (m & k & E & V & A & B); [lra|rewrite T3 in H; lra|].
    exists m, (k + 1)%Z. split; [cbn [scale_up] in E; rewrite E; do 2 f_equal; lia|]. split; [|split; [exact A|right]].
    + rewrite V. replace (3 * (k + 1))%Z with (3 + 3 * k)%Z by lia. rewrite T_add. change (T 3) with 1000. ring.
    + destruct B as [->|B]; [|exact B]. rewrite V. change (T (3 * 0)) with 1. lra.
  - exists num, 0%Z. split; [do 2 f_equal; lia|]. change (T (3 * 0)) with 1. repeat split; [ring|lra|now left].
Qed.
Lemma scale_down_ok : forall n num e, num < T (3 * Z.of_nat n) ->
  exists m k, scale_down (S n) num e = Some (m, (e + 3 * k)%Z) /\ num == m * T (3 * k) /\ m < 1 /\ ((k = 0%Z /\ m = num) \/ 1 # 1000 <= m).
Proof.
  induction n as [|n IH]; intros num e H; cbn [scale_down]; destruct (qleb_spec 1 num) as [L|L].
  - exfalso. change (T (3 * Z.of_nat 0)) with 1 in H. lra.
  - exists num, 0%Z. split; [do 2 f_equal; lia|]. change (T (3 * 0)) with 1. repeat split; [ring|lra|now left].
  - destruct (IH (num * (1 # 1000)) (e + 3)%Z) as (m & k & E & V & A & B); [rewrite T3 in H; lra|].
    exists m, (k + 1)%Z. split; [cbn [scale_down] in E; rewrite E; do 2 f_equal; lia|]. split; [|split; [exact A|right]].
    + replace (3 * (k + 1))%Z with (3 + 3 * k)%Z by lia. rewrite T_add. change (T 3) with 1000. 
      setoid_replace (m * (1000 * T (3 * k))) with (1000 * (m * T (3 * k))) by ring. rewrite <- V. ring.
    + destruct B as [[_ ->]|B]; [lra|exact B].
  - exists num, 0%Z. split; [do 2 f_equal; lia|]. change (T (3 * 0)) with 1. repeat split; [ring|lra|now left].
Qed.
Lemma pow2_T : forall n, inject_Z (2 ^ Z.of_nat n) <= T (3 * Z.of_nat n).
Proof.
  induction n as [|n IH]; [discriminate|]. rewrite T3, Nat2Z.inj_succ, Z.pow_succ_r, inject_Z_mult by lia. change (inject_Z 2) with 2.
  pose proof (T_pos (3 * Z.of_nat n)). lra.
Qed.
Lemma den_bound : forall p, (Z.pos p < 2 ^ Z.of_nat (Pos.size_nat p))%Z.
Proof.
  induction p as [p IH|p IH|]; cbn [Pos.size_nat]; rewrite ?Nat2Z.inj_succ, ?Z.pow_succ_r by lia; [lia|lia|reflexivity].
Qed.
Lemma scale_ok : forall x, 0 < x -> exists m1 e1 n e, scale_up (up_rounds x) x (-3) = Some (m1, e1) /\
  scale_down (down_rounds m1) m1 e1 = Some (n, e) /\ 1 # 1000 <= n < 1 /\ x == n * T (e + 3) /\ exists j, e = (3 * j)%Z.
Proof.
  intros x P. destruct (scale_up_ok (Pos.size_nat (Qden x)) x (-3) P) as (m1 & k & E & V & A & B).
  { pose proof (pow2_T (Pos.size_nat (Qden x))) as H. pose proof (den_bound (Qden x)) as D. rewrite Zlt_Qlt in D.
    assert (X : 1 <= x * inject_Z (Z.pos (Qden x))).
    { destruct x as [a b]. unfold Qlt in P. cbn in P. unfold Qle. cbn. nia. }
    eapply Qle_trans; [exact X|]. apply Qmult_le_l; [exact P|]. lra. }
  exists m1, (-3 - 3 * k)%Z. 
  destruct (scale_down_ok (Z.to_nat (Z.log2 (Qnum m1)) + 1) m1 (-3 - 3 * k)) as (n & j & E2 & V2 & A2 & B2).
  { eapply Qlt_le_trans; [|apply pow2_T]. destruct m1 as [a b]. unfold Qle in A. cbn in A.
    assert (0 < a)%Z by nia. cbn [Qnum]. rewrite Nat2Z.inj_add, Z2Nat.id by apply Z.log2_nonneg. change (Z.of_nat 1) with 1%Z.
    destruct (Z.log2_spec a) as [_ U]; [assumption|]. unfold Qlt. cbn. change (Z.succ (Z.log2 a)) with (Z.log2 a + 1)%Z in U. nia. }
  exists n, (-3 - 3 * k + 3 * j)%Z. split; [exact E|]. split; [exact E2|]. split.
  - split; [|exact A2]. destruct B2 as [[_ ->]|B2]; assumption.
  - split; [|exists (j - k - 1)%Z; lia]. replace (-3 - 3 * k + 3 * j + 3)%Z with (3 * j + (- (3 * k)))%Z by lia. rewrite T_add.
    setoid_replace (n * (T (3 * j) * T (- (3 * k)))) with ((n * T (3 * j)) * T (- (3 * k))) by ring. rewrite <- V2, V.
    rewrite <- Qmult_assoc, <- T_add, Z.add_opp_diag_r. change (T 0) with 1. ring.
Qed.

(* n has z zeros after the point *)
Fixpoint lead (z : nat) (n : Q) : Prop := match z with O => 1 # 10 <= n < 1 | S z' => lead z' (n * 10) end.
Definition shl (z : nat) (n : Q) : Q := n * T (Z.of_nat z).
Lemma lead_iff : forall z n, lead z n <-> 1 # 10 <= shl z n < 1.
Proof.
  induction z as [|z IH]; intros n; unfold shl in *; cbn [lead].
  - change (T (Z.of_nat 0)) with 1. rewrite Qmult_1_r. reflexivity.
  - rewrite IH. rewrite Nat2Z.inj_succ. unfold Z.succ. rewrite T_succ. 
    setoid_replace (n * (10 * T (Z.of_nat z))) with (n * 10 * T (Z.of_nat z)) by ring. reflexivity.
Qed.
Lemma lead_comp : forall z a b, a == b -> lead z a -> lead z b.
Proof. intros z a b E H. rewrite lead_iff in *. unfold shl in *. now rewrite <- E. Qed.
Lemma shl_comp : forall z a b, a == b -> shl z a == shl z b.
Proof. intros z a b E. unfold shl. now rewrite E. Qed.
Lemma lead_decade : forall z n, lead z n -> T (- Z.of_nat z - 1) <= n < T (- Z.of_nat z).
Proof.
  intros z n H. apply lead_iff in H. unfold shl in H. pose proof (T_pos (Z.of_nat z)) as P. pose proof (T_pos (- Z.of_nat z)) as P'.
  assert (E : T (Z.of_nat z) * T (- Z.of_nat z) == 1) by (rewrite <- T_add, Z.add_opp_diag_r; reflexivity).
  assert (E1 : T (- Z.of_nat z - 1) == (1 # 10) * T (- Z.of_nat z)).
  { replace (- Z.of_nat z - 1)%Z with (- Z.of_nat z + (-1))%Z by lia. rewrite T_add. change (T (-1)) with (1 # 10). ring. }
  set (a := T (Z.of_nat z)) in *. set (b := T (- Z.of_nat z)) in *.
  assert (X : n == n * a * b) by (rewrite <- Qmult_assoc, E; ring). rewrite E1. split.
  - rewrite X. apply Qmult_le_r; [exact P'|apply H].
  - rewrite X. rewrite <- (Qmult_1_l b) at 2. apply Qmult_lt_r; [exact P'|apply H].
Qed.
Lemma lead_choose : forall n, 1 # 1000 <= n < 1 -> exists z, (z <= 2)%nat /\ lead z n /\
  (z = 2%nat <-> n < 1 # 100) /\ (z = 0%nat <-> ~ n < 1 # 10).
Proof.
  intros n H. destruct (Qlt_le_dec n (1 # 100)) as [L|L]; [exists 2%nat|destruct (Qlt_le_dec n (1 # 10)) as [L'|L']; [exists 1%nat|exists 0%nat]];
    (split; [lia|]; split; [cbn [lead]; lra|]); split; split; intros X; try lia; try lra; try discriminate X; try (exfalso; lra); try reflexivity.
Qed.
Lemma lead_unique : forall y z n, lead y n -> lead z n -> y = z.
Proof.
  intros y z n A B. apply lead_decade in A. apply lead_decade in B.
  assert (- Z.of_nat y - 1 = - Z.of_nat z - 1)%Z by (apply (decade_unique n); replace (- Z.of_nat y - 1 + 1)%Z with (- Z.of_nat y)%Z by lia;
    replace (- Z.of_nat z - 1 + 1)%Z with (- Z.of_nat z)%Z by lia; assumption). lia.
Qed.

(* rounding: D0 is the number of units nearest to n (half up); the digits that will be printed are
   those of D, in the position given by z and e1 *)
Definition P10 (len : nat) : Z := 10 ^ Z.of_nat len.
Lemma round_ok : forall len n e, (3 <= len)%nat -> 1 # 1000 <= n < 1 ->
  exists z0 z n1 e1, (z0 <= 2)%nat /\ lead z0 n /\ round_num len n e = (n1, e1) /\ (z <= 2)%nat /\ lead z n1 /\
    let D0 := Qfloor (shl z0 n * inject_Z (P10 len) + (1 # 2)) in
    let D := Qfloor (shl z n1 * inject_Z (P10 len)) in
    (P10 (len - 1) <= D < P10 len)%Z /\
    ((D0 < P10 len)%Z /\ z = z0 /\ e1 = e /\ D = D0 \/
     D0 = P10 len /\ D = P10 (len - 1) /\ (z0 = S z /\ e1 = e \/ z0 = 0%nat /\ z = 2%nat /\ e1 = (e + 3)%Z)).
Proof.
  intros len n e L H. destruct (lead_choose n H) as (z0 & Z2 & Ld & I2 & I0).
  set (P := P10 len). assert (EP : P = (10 * P10 (len - 1))%Z) by (unfold P, P10; rewrite <- pow10_S; do 2 f_equal; lia).
  assert (PP : (100 <= P10 (len - 1))%Z).
  { unfold P10. change 100%Z with (10 ^ 2)%Z. apply Z.pow_le_mono_r; lia. }
  set (p := P10 (len - 1)) in *. assert (EQ : inject_Z P == 10 * inject_Z p) by (rewrite EP, inject_Z_mult; reflexivity).
  assert (Qp : 100 <= inject_Z p) by (rewrite Zle_Qle in PP; exact PP).
  set (y := shl z0 n * inject_Z P).
  assert (Hy : inject_Z p <= y < inject_Z P).
  { apply lead_iff in Ld. unfold y. split.
    - assert (inject_Z p == (1 # 10) * inject_Z P) as -> by (rewrite EQ; ring). apply Qmult_le_r; [lra|apply Ld].
    - rewrite <- (Qmult_1_l (inject_Z P)) at 2. apply Qmult_lt_r; [lra|apply Ld]. }
  (* the rounded number *)
  set (rnd := (1 # 2) / Qpower 10 (Z.of_nat len)).
  assert (ER : rnd * inject_Z P == 1 # 2).
  { unfold rnd, P, P10. rewrite <- T_int by lia. field. intros X. pose proof (T_pos (Z.of_nat len)) as T'. rewrite X in T'. discriminate T'. }
  assert (Er : exists r, (if qltb n (1 # 100) then rnd / 100 else if qltb n (1 # 10) then rnd / 10 else rnd) = r /\ shl z0 (n + r) * inject_Z P == y + (1 # 2)).
  { eexists. split; [reflexivity|]. unfold y, shl. destruct (qltb_spec n (1 # 100)) as [A|A].
    - assert (z0 = 2%nat) as -> by now apply I2. change (T (Z.of_nat 2)) with 100. 
      setoid_replace ((n + rnd / 100) * 100 * inject_Z P) with (n * 100 * inject_Z P + rnd * inject_Z P) by field. now rewrite ER.
    - destruct (qltb_spec n (1 # 10)) as [B|B].
      + assert (z0 = 1%nat) as ->.
        { destruct z0 as [|[|[|z0]]]; [|reflexivity| |lia]; exfalso; [now apply I0|]. now apply A, I2. }
        change (T (Z.of_nat 1)) with 10. setoid_replace ((n + rnd / 10) * 10 * inject_Z P) with (n * 10 * inject_Z P + rnd * inject_Z P) by field. now rewrite ER.
      + assert (z0 = 0%nat) as -> by now apply I0. change (T (Z.of_nat 0)) with 1.
        setoid_replace ((n + rnd) * 1 * inject_Z P) with (n * 1 * inject_Z P + rnd * inject_Z P) by ring. now rewrite ER. }
  destruct Er as (r & Er & Ey). 
  assert (PQ : 0 < inject_Z P) by lra.
  set (D0 := Qfloor (y + (1 # 2))).
  assert (HD : (p <= D0 < P + 1)%Z).
  { apply floor_range; [lra|]. rewrite inject_Z_plus. change (inject_Z 1) with 1. lra. }
  assert (L1 : inject_Z D0 <= y + (1 # 2)) by apply Qfloor_le.
  assert (L2 : y + (1 # 2) < inject_Z D0 + 1).
  { pose proof (Qlt_floor (y + (1 # 2))) as X. fold D0 in X. rewrite inject_Z_plus in X. exact X. }
  assert (ErN : round_num len n e = if qleb 1 (n + r) then ((n + r) * (1 # 1000), (e + 3)%Z) else (n + r, e)).
  { unfold round_num. cbv zeta. fold rnd. rewrite Er. reflexivity. }
  assert (Lo : 1 # 10 <= shl z0 (n + r)).
  { assert (inject_Z p <= y + (1 # 2)) as X by lra. rewrite <- Ey in X. assert (inject_Z p == (1 # 10) * inject_Z P) as Y by (rewrite EQ; ring). rewrite Y in X.
    now apply Qmult_le_r in X. }
  destruct (Z_lt_le_dec D0 P) as [C|C].
  - (* no carry out of the leading digit *)
    assert (Hi : shl z0 (n + r) < 1).
    { assert (inject_Z (D0 + 1) <= inject_Z P) as X by (rewrite <- Zle_Qle; lia). rewrite inject_Z_plus in X. change (inject_Z 1) with 1 in X.
      assert (y + (1 # 2) < 1 * inject_Z P) as Y by lra. rewrite <- Ey in Y. now apply Qmult_lt_r in Y. }
    assert (L' : lead z0 (n + r)) by (apply lead_iff; lra).
    assert (N1 : n + r < 1).
    { apply lead_decade in L'. eapply Qlt_le_trans; [apply L'|]. apply (T_le _ 0). lia. }
    exists z0, z0, (n + r), e. repeat split; try assumption.
    + rewrite ErN. destruct (qleb_spec 1 (n + r)); [lra|reflexivity].
    + rewrite (Qfloor_comp _ _ Ey). fold y. fold D0. lia.
    + rewrite (Qfloor_comp _ _ Ey). fold y. fold D0. lia.
    + left. rewrite (Qfloor_comp _ _ Ey). fold y. fold D0. repeat split; lia.
  - assert (ED : D0 = P) by lia.
    assert (Hy2 : inject_Z P <= y + (1 # 2) < inject_Z P + 1) by (rewrite <- ED; split; [exact L1|lra]).
    assert (Hi : 1 <= shl z0 (n + r)).
    { assert (1 * inject_Z P <= y + (1 # 2)) as Y by lra. rewrite <- Ey in Y. now apply Qmult_le_r in Y. }
    assert (Hi2 : shl z0 (n + r) < 1 + (1 # 100)).
    { assert (y + (1 # 2) < (1 + (1 # 100)) * inject_Z P) as Y by lra. rewrite <- Ey in Y. now apply Qmult_lt_r in Y. }
    destruct z0 as [|z].
    + unfold shl in Hi, Hi2, Ey. change (T (Z.of_nat 0)) with 1 in Hi, Hi2, Ey.
      assert (L' : lead 2 ((n + r) * (1 # 1000))) by (apply lead_iff; unfold shl; change (T (Z.of_nat 2)) with 100; lra).
      assert (FD : Qfloor (shl 2 ((n + r) * (1 # 1000)) * inject_Z P) = p).
      { assert (X : shl 2 ((n + r) * (1 # 1000)) * inject_Z P == (1 # 10) * (y + (1 # 2))).
        { rewrite <- Ey. unfold shl. change (T (Z.of_nat 2)) with 100. ring. }
        apply floor_unique; rewrite X, ?inject_Z_plus; change (inject_Z 1) with 1; lra. }
      exists 0%nat, 2%nat, ((n + r) * (1 # 1000)), (e + 3)%Z. rewrite FD. fold y. fold D0. split; [lia|]. split; [exact Ld|]. split; [|split; [lia|split; [exact L'|split; [lia|]]]].
      * rewrite ErN. destruct (qleb_spec 1 (n + r)); [reflexivity|lra].
      * right. split; [exact ED|]. split; [reflexivity|]. right. auto.
    + assert (X : shl z (n + r) == (1 # 10) * shl (S z) (n + r)).
      { unfold shl. rewrite Nat2Z.inj_succ. unfold Z.succ. rewrite T_succ. ring. }
      assert (L' : lead z (n + r)) by (apply lead_iff; rewrite X; lra).
      assert (N1 : n + r < 1).
      { apply lead_decade in L'. eapply Qlt_le_trans; [apply L'|]. apply (T_le _ 0). lia. }
      assert (FD : Qfloor (shl z (n + r) * inject_Z P) = p).
      { assert (Y : shl z (n + r) * inject_Z P == (1 # 10) * (y + (1 # 2))) by (rewrite <- Ey, X; ring).
        apply floor_unique; rewrite Y, ?inject_Z_plus; change (inject_Z 1) with 1; lra. }
      exists (S z), z, (n + r), e. rewrite FD. fold y. fold D0. split; [lia|]. split; [exact Ld|]. split; [|split; [lia|split; [exact L'|split; [lia|]]]].
      * rewrite ErN. destruct (qleb_spec 1 (n + r)); [lra|reflexivity].
      * right. split; [exact ED|]. split; [reflexivity|]. left. auto.
Qed.
