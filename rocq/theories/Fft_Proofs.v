(* Lemmas on the model of the fast Fourier transform. *)
Require Import ZArith List Lia Bool Field.
Require Import ZifyBool.
Require Import Verif.Loops Verif.FieldSums Verif.Fft_Model.
Import ListNotations.
Local Open Scope Z_scope.

(* ---------- bit reversal of k-bit numbers ---------- *)
Fixpoint rev (k : nat) (i : Z) : Z :=
  match k with
  | O => 0
  | S k' => 2 * rev k' (i mod 2 ^ Z.of_nat k') + i / 2 ^ Z.of_nat k'
  end.

Definition p2 (k : nat) : Z := 2 ^ Z.of_nat k.
Lemma p2_pos : forall k, 0 < p2 k.
Proof. intros. unfold p2. apply Z.pow_pos_nonneg; lia. Qed.
Lemma p2_S : forall k, p2 (S k) = 2 * p2 k.
Proof. intros. unfold p2. rewrite Nat2Z.inj_succ, Z.pow_succ_r by lia. reflexivity. Qed.

Lemma rev_high : forall k c j, 0 <= j < p2 k -> rev (S k) (c * p2 k + j) = 2 * rev k j + c.
Proof.
  intros k c j H. cbn [rev]. change (2 ^ Z.of_nat k) with (p2 k). rewrite (Z.add_comm (c * p2 k)), Z_mod_plus_full, Z_div_plus_full by (pose proof (p2_pos k); lia).
  rewrite Z.mod_small, Z.div_small by assumption. lia.
Qed.
Lemma split_high : forall k i, 0 <= i < p2 (S k) -> exists c j, (c = 0 \/ c = 1) /\ 0 <= j < p2 k /\ i = c * p2 k + j.
Proof.
  intros k i H. rewrite p2_S in H. pose proof (p2_pos k).
  destruct (Z_lt_dec i (p2 k)); [exists 0, i | exists 1, (i - p2 k)]; lia.
Qed.
Lemma rev_bound : forall k i, 0 <= i < p2 k -> 0 <= rev k i < p2 k.
Proof.
  induction k as [|k IH]; intros i H.
  - cbn [rev]. pose proof (p2_pos 0). lia.
  - destruct (split_high k i H) as (c & j & Hc & Hj & ->). rewrite rev_high by assumption.
    specialize (IH j Hj). rewrite p2_S. lia.
Qed.
(* the low bit of the argument is the high bit of the result *)
Lemma rev_low : forall k c a, (c = 0 \/ c = 1) -> 0 <= a < p2 k -> rev (S k) (2 * a + c) = c * p2 k + rev k a.
Proof.
  induction k as [|k IH]; intros c a Hc Ha.
  - unfold p2 in *. cbn in Ha. assert (a = 0) by lia. subst a. destruct Hc as [-> | ->]; reflexivity.
  - destruct (split_high k a Ha) as (d & b & Hd & Hb & ->).
    replace (2 * (d * p2 k + b) + c) with (d * p2 (S k) + (2 * b + c)) by (rewrite p2_S; lia).
    rewrite rev_high by (rewrite p2_S; lia). rewrite IH by assumption.
    rewrite rev_high by assumption. rewrite p2_S. lia.
Qed.
Lemma split_low : forall k i, 0 <= i < p2 (S k) -> exists c a, (c = 0 \/ c = 1) /\ 0 <= a < p2 k /\ i = 2 * a + c.
Proof.
  intros k i H. rewrite p2_S in H. exists (i mod 2), (i / 2).
  pose proof (Z.div_mod i 2). pose proof (Z.mod_pos_bound i 2). lia.
Qed.
Lemma rev_rev : forall k i, 0 <= i < p2 k -> rev k (rev k i) = i.
Proof.
  induction k as [|k IH]; intros i H.
  - unfold p2 in H. cbn in *. lia.
  - destruct (split_low k i H) as (c & a & Hc & Ha & ->). rewrite rev_low by assumption.
    rewrite rev_high by (apply rev_bound; assumption). rewrite IH by assumption. lia.
Qed.
Lemma rev_0 : forall k, rev k 0 = 0.
Proof. induction k as [|k IH]; [reflexivity|]. cbn [rev]. rewrite Z.mod_0_l, Z.div_0_l, IH by (pose proof (p2_pos k); unfold p2 in *; lia). lia. Qed.

Lemma quot2 : forall z, 0 <= z -> Z.quot (2 * z) 2 = z.
Proof. intros. rewrite Z.quot_div_nonneg by lia. rewrite Z.mul_comm. apply Z.div_mul. lia. Qed.

(* the next index in reversed order *)
Lemma next_rev_ok : forall k i f, 0 <= i < p2 (S k) - 1 -> (k < f)%nat ->
  next_rev f (p2 k) (rev (S k) i) = Some (rev (S k) (i + 1)).
Proof.
  induction k as [|k IH]; intros i f Hi Hf.
  - unfold p2 in *. cbn in Hi. assert (i = 0) by lia. subst i. destruct f; [lia|]. reflexivity.
  - destruct (split_low (S k) i) as (c & a & Hc & Ha & E); [lia|]. subst i.
    rewrite rev_low by assumption. pose proof (rev_bound _ _ Ha) as Hb.
    destruct f as [|f]; [lia|]. cbn [next_rev]. destruct Hc as [-> | ->].
    + replace (p2 (S k) <=? 0 * p2 (S k) + rev (S k) a) with false by lia.
      replace (2 * a + 0 + 1) with (2 * a + 1) by lia. rewrite (rev_low (S k) 1 a) by (auto; assumption). f_equal. lia.
    + replace (p2 (S k) <=? 1 * p2 (S k) + rev (S k) a) with true by lia.
      replace (1 * p2 (S k) + rev (S k) a - p2 (S k)) with (rev (S k) a) by lia.
      rewrite (p2_S k), quot2 by (pose proof (p2_pos k); lia).
      assert (a < p2 (S k) - 1) by (rewrite (p2_S (S k)) in Hi; lia).
      rewrite IH by lia.
      replace (2 * a + 1 + 1) with (2 * (a + 1) + 0) by lia. rewrite (rev_low (S k) 0) by (auto; lia).
      reflexivity.
Qed.

Section Proofs.
Variable K : fld.
Add Field Kf : (fth K).
Variable W : bool -> Z -> Z -> F K.
Declare Scope kk_scope.
Notation "0" := (f0 K) : kk_scope. Notation "1" := (f1 K) : kk_scope.
Infix "+" := (fadd K) : kk_scope. Infix "*" := (fmul K) : kk_scope. Infix "-" := (fsub K) : kk_scope.
Infix "/" := (fdiv K) : kk_scope. Notation "- x" := (fopp K x) : kk_scope.
Delimit Scope kk_scope with kk.

Lemma aget_in : forall n x i, 0 <= i < n -> aget K n x i = Some (x i).
Proof. intros. unfold aget. replace ((0 <=? i) && (i <? n)) with true by lia. reflexivity. Qed.
Lemma aset_in : forall n x i v, 0 <= i < n -> aset K n x i v = Some (fun k => if k =? i then v else x k).
Proof. intros. unfold aset. replace ((0 <=? i) && (i <? n)) with true by lia. reflexivity. Qed.

Lemma butterfly_ok : forall n h w j x, 0 < h -> 0 <= j -> (j + h < n)%Z ->
  exists y, butterfly K n h w j x = Some y /\
    forall k, y k = if k =? j then (x j + x (j + h)%Z)%kk else if k =? (j + h)%Z then ((x j - x (j + h)%Z) * w)%kk else x k.
Proof.
  intros n h w j x Hh Hj Hn. unfold butterfly. rewrite !aget_in by lia. cbn [bind]. rewrite aset_in by lia. cbn [bind].
  rewrite aset_in by lia. eexists. split; [reflexivity|]. intros k. cbn beta.
  destruct (k =? j) eqn:E1, (k =? (j + h)%Z) eqn:E2; try reflexivity. lia.
Qed.

(* position k is in the pair treated for m by blocks q and up *)
Definition lo_of (nxp m q k : Z) : bool := (k mod nxp =? m) && (q <=? k / nxp).
Lemma blocks_ok : forall h m w c r q f n x, 0 < h -> 0 <= m < h -> 0 <= q -> 0 < c -> (q + Z.of_nat r = c)%Z -> n = (c * (2 * h))%Z -> (n <= 2 ^ 29)%Z ->
  (r <= f)%nat ->
  exists y, blocks K f n (2 * h) h m w (q * (2 * h) + m) x = Some y /\
    forall k, 0 <= k < n ->
      y k = if lo_of (2 * h) m q k then (x k + x (k + h)%Z)%kk
            else if lo_of (2 * h) (m + h) q k then ((x (k - h)%Z - x k) * w)%kk else x k.
Proof.
  intros h m w c r. induction r as [|r IH]; intros q f n x Hh Hm Hq Hcp Hc Hn Hb Hf.
  - exists x. assert (Eb : blocks K f n (2 * h) h m w (q * (2 * h) + m) x = Some x).
    { assert (q = c) by lia. subst q. assert (2 * h <= n) by (subst n; nia).
      destruct f; cbn [blocks]; (replace (c * (2 * h) + m + 2 * h <? 2 ^ 31) with true by lia);
      replace (c * (2 * h) + m + 2 * h - m <=? n) with false by (subst n; lia); reflexivity. }
    split; [exact Eb|]. intros k Hk. unfold lo_of.
    assert (k / (2 * h) < q) by (apply Z.div_lt_upper_bound; subst n; nia).
    replace (q <=? k / (2 * h)) with false by lia. now rewrite !andb_false_r.
  - destruct f as [|f]; [lia|]. cbn [blocks].
    assert (Hle : ((q + 1) * (2 * h) <= n)%Z) by (subst n; nia).
    replace (q * (2 * h) + m + 2 * h <? 2 ^ 31) with true by lia.
    replace (q * (2 * h) + m + 2 * h - m <=? n) with true by lia.
    assert (Hq2 : (0 <= q * (2 * h))%Z) by nia.
    destruct (butterfly_ok n h w (q * (2 * h) + m) x) as (y & Ey & Hy); [lia|lia|lia|].
    rewrite Ey. cbn [bind].
    replace (q * (2 * h) + m + 2 * h)%Z with ((q + 1) * (2 * h) + m)%Z by lia.
    destruct (IH (q + 1) f n y) as (z & Ez & Hz); try lia.
    exists z. split; [exact Ez|]. intros k Hk. rewrite Hz by assumption.
    assert (Dk : k = ((2 * h) * (k / (2 * h)) + k mod (2 * h))%Z) by (apply Z.div_mod; lia).
    assert (Mk : 0 <= k mod (2 * h) < 2 * h) by (apply Z.mod_pos_bound; lia).
    unfold lo_of. destruct (k mod (2 * h) =? m) eqn:Em; cbn [andb].
    + replace (k mod (2 * h) =? (m + h)%Z) with false by lia. cbn [andb].
      destruct (Z.lt_trichotomy (k / (2 * h)) q) as [L|[L|L]].
      * replace (q + 1 <=? k / (2 * h)) with false by lia. replace (q <=? k / (2 * h)) with false by lia. rewrite Hy.
        replace (k =? (q * (2 * h) + m)%Z) with false by nia. replace (k =? (q * (2 * h) + m + h)%Z) with false by nia. reflexivity.
      * replace (q + 1 <=? k / (2 * h)) with false by lia. replace (q <=? k / (2 * h)) with true by lia. rewrite Hy.
        assert (k = (q * (2 * h) + m)%Z) by nia. subst k. now rewrite Z.eqb_refl.
      * replace (q + 1 <=? k / (2 * h)) with true by lia. replace (q <=? k / (2 * h)) with true by lia. rewrite !Hy.
        replace (k =? (q * (2 * h) + m)%Z) with false by nia. replace (k =? (q * (2 * h) + m + h)%Z) with false by nia.
        replace (k + h =? q * (2 * h) + m)%Z with false by nia. replace (k + h =? q * (2 * h) + m + h)%Z with false by nia. reflexivity.
    + destruct (k mod (2 * h) =? (m + h)%Z) eqn:Eh; cbn [andb].
      * destruct (Z.lt_trichotomy (k / (2 * h)) q) as [L|[L|L]].
        -- replace (q + 1 <=? k / (2 * h)) with false by lia. replace (q <=? k / (2 * h)) with false by lia. rewrite Hy.
           replace (k =? (q * (2 * h) + m)%Z) with false by nia. replace (k =? (q * (2 * h) + m + h)%Z) with false by nia. reflexivity.
        -- replace (q + 1 <=? k / (2 * h)) with false by lia. replace (q <=? k / (2 * h)) with true by lia. rewrite Hy.
           assert (k = (q * (2 * h) + m + h)%Z) by nia.
           replace (k =? (q * (2 * h) + m)%Z) with false by lia. replace (k =? (q * (2 * h) + m + h)%Z) with true by lia.
           replace (k - h)%Z with (q * (2 * h) + m)%Z by lia. replace (q * (2 * h) + m + h)%Z with k by lia. reflexivity.
        -- replace (q + 1 <=? k / (2 * h)) with true by lia. replace (q <=? k / (2 * h)) with true by lia. rewrite !Hy.
           replace (k =? (q * (2 * h) + m)%Z) with false by nia. replace (k =? (q * (2 * h) + m + h)%Z) with false by nia.
           replace (k - h =? q * (2 * h) + m)%Z with false by nia. replace (k - h =? q * (2 * h) + m + h)%Z with false by nia. reflexivity.
      * rewrite Hy. replace (k =? (q * (2 * h) + m)%Z) with false; [replace (k =? (q * (2 * h) + m + h)%Z) with false; [reflexivity|]|].
        -- symmetry. apply Z.eqb_neq. intros ->. rewrite <- Z.add_assoc, Z.add_comm, Z_mod_plus_full, Z.mod_small in Eh by lia. lia.
        -- symmetry. apply Z.eqb_neq. intros ->. rewrite Z.add_comm, Z_mod_plus_full, Z.mod_small in Em by lia. lia.
Qed.

(* one level *)
Lemma level_ok : forall inv h c n x, 0 < h -> 0 < c -> n = (c * (2 * h))%Z -> (n <= 2 ^ 29)%Z ->
  exists y, for_up 0 h (fun m x => blocks K (Z.to_nat n) n (2 * h) h m (W inv (2 * h) m) m x) x = Some y /\
    forall k, 0 <= k < n ->
      y k = if k mod (2 * h) <? h then (x k + x (k + h)%Z)%kk
            else ((x (k - h)%Z - x k) * W inv (2 * h) (k mod (2 * h) - h)%Z)%kk.
Proof.
  intros inv h c n x Hh Hc Hn Hb.
  destruct (for_up_ind _ (fun m y => forall k, 0 <= k < n ->
      y k = if k mod (2 * h) <? m then (x k + x (k + h)%Z)%kk
            else if (h <=? k mod (2 * h)) && (k mod (2 * h) <? h + m)%Z
                 then ((x (k - h)%Z - x k) * W inv (2 * h) (k mod (2 * h) - h)%Z)%kk else x k)
      (fun m x => blocks K (Z.to_nat n) n (2 * h) h m (W inv (2 * h) m) m x) 0%Z h x) as (y & Ey & Hy).
  - lia.
  - intros k Hk. assert (Mk : 0 <= k mod (2 * h) < 2 * h) by (apply Z.mod_pos_bound; lia).
    replace (k mod (2 * h) <? 0) with false by lia.
    replace ((h <=? k mod (2 * h)) && (k mod (2 * h) <? h + 0)%Z) with false by lia. reflexivity.
  - intros m y Hm Hy.
    destruct (blocks_ok h m (W inv (2 * h) m) c (Z.to_nat c) 0%Z (Z.to_nat n) n y) as (z & Ez & Hz); try lia; [nia|].
    rewrite Z.mul_0_l, Z.add_0_l in Ez. exists z. split; [exact Ez|].
    intros k Hk. rewrite Hz by assumption. unfold lo_of.
    assert (Mk : 0 <= k mod (2 * h) < 2 * h) by (apply Z.mod_pos_bound; lia).
    assert (Dk : k = ((2 * h) * (k / (2 * h)) + k mod (2 * h))%Z) by (apply Z.div_mod; lia).
    assert (Gk : 0 <= k / (2 * h)) by (apply Z.div_pos; lia).
    assert (Lk : k / (2 * h) < c) by (apply Z.div_lt_upper_bound; subst n; nia).
    replace (0 <=? k / (2 * h)) with true by lia. rewrite !andb_true_r.
    destruct (k mod (2 * h) =? m) eqn:Em.
    + replace (k mod (2 * h) <? m + 1)%Z with true by lia. rewrite Hy by assumption.
      replace (k mod (2 * h) <? m) with false by lia.
      replace ((h <=? k mod (2 * h)) && (k mod (2 * h) <? h + m)%Z) with false by lia.
      assert (E1 : ((k + h) mod (2 * h) = m + h)%Z).
      { rewrite Dk. replace (2 * h * (k / (2 * h)) + k mod (2 * h) + h)%Z with ((m + h) + (k / (2 * h)) * (2 * h))%Z by lia.
        rewrite Z_mod_plus_full. apply Z.mod_small. lia. }
      rewrite Hy by (subst n; nia). rewrite E1.
      replace (m + h <? m)%Z with false by lia. replace ((h <=? m + h) && (m + h <? h + m))%Z with false by lia. reflexivity.
    + destruct (k mod (2 * h) =? m + h)%Z eqn:Eh.
      * replace (k mod (2 * h) <? m + 1)%Z with false by lia.
        replace ((h <=? k mod (2 * h)) && (k mod (2 * h) <? h + (m + 1)))%Z with true by lia.
        assert (E1 : ((k - h) mod (2 * h) = m)%Z).
        { rewrite Dk. replace (2 * h * (k / (2 * h)) + k mod (2 * h) - h)%Z with (m + (k / (2 * h)) * (2 * h))%Z by lia.
          rewrite Z_mod_plus_full. apply Z.mod_small. lia. }
        rewrite !Hy by (subst n; nia). rewrite E1.
        replace (m <? m) with false by lia. replace ((h <=? m) && (m <? h + m))%Z with false by lia.
        replace (k mod (2 * h) <? m) with false by lia.
        replace ((h <=? k mod (2 * h)) && (k mod (2 * h) <? h + m)%Z) with false by lia.
        replace (k mod (2 * h) - h)%Z with m by lia. reflexivity.
      * rewrite Hy by assumption.
        replace (k mod (2 * h) <? m + 1)%Z with (k mod (2 * h) <? m) by lia.
        replace ((h <=? k mod (2 * h)) && (k mod (2 * h) <? h + (m + 1)))%Z with ((h <=? k mod (2 * h)) && (k mod (2 * h) <? h + m))%Z by lia.
        reflexivity.
  - exists y. split; [exact Ey|]. intros k Hk. rewrite Hy by assumption.
    assert (Mk : 0 <= k mod (2 * h) < 2 * h) by (apply Z.mod_pos_bound; lia).
    destruct (k mod (2 * h) <? h) eqn:E; [reflexivity|].
    replace ((h <=? k mod (2 * h)) && (k mod (2 * h) <? h + h)%Z) with true by lia. reflexivity.
Qed.

(* what is asked of the factors, for transforms of at most 2^k points: they are the powers of
   primitive roots of unity *)
Definition roots (k : nat) (W : Z -> Z -> F K) : Prop :=
  (forall j a b, (j <= k)%nat -> W (p2 j) (a + b)%Z = (W (p2 j) a * W (p2 j) b)%kk) /\
  (forall j a, (j < k)%nat -> W (p2 (S j)) (2 * a)%Z = W (p2 j) a) /\
  (forall j, (j < k)%nat -> W (p2 (S j)) (p2 j) = (fopp K (f1 K))) /\
  (forall a, W 1%Z a = 1%kk).

Section Roots.
Variable V : Z -> Z -> F K.
Variable N : nat.
Hypothesis HV : roots N V.

Lemma V_0 : forall k, (k <= N)%nat -> V (p2 k) 0%Z = 1%kk.
Proof.
  destruct HV as (_ & H2 & _ & H1). induction k as [|k IH]; intros Hk; [apply H1|].
  rewrite <- IH by lia. apply (H2 k 0%Z). lia.
Qed.
Lemma V_full : forall k, (k <= N)%nat -> V (p2 k) (p2 k) = 1%kk.
Proof.
  intros k Hk. destruct HV as (Ha & H2 & Hm & H1). destruct k as [|k]; [apply H1|].
  rewrite (p2_S k) at 2. replace (2 * p2 k)%Z with (p2 k + p2 k)%Z by lia.
  rewrite Ha, !Hm by lia. ring.
Qed.
Lemma V_mult : forall k a, (k <= N)%nat -> V (p2 k) (p2 k * a)%Z = 1%kk.
Proof.
  intros k a Hk. destruct HV as (Ha & _).
  assert (P : forall m, 0 <= m -> V (p2 k) (p2 k * m)%Z = 1%kk).
  { apply natlike_ind.
    - rewrite Z.mul_0_r. now apply V_0.
    - intros m Hm IH. replace (p2 k * Z.succ m)%Z with (p2 k * m + p2 k)%Z by lia. rewrite Ha by lia.
      rewrite IH, V_full by lia. ring. }
  destruct (Z_le_gt_dec 0 a) as [L|L]; [now apply P|].
  assert (E := P (- a)%Z ltac:(lia)). assert (Z0 := V_0 k Hk).
  replace 0%Z with (p2 k * a + p2 k * - a)%Z in Z0 by lia. rewrite Ha in Z0 by lia. rewrite E in Z0.
  rewrite <- Z0. ring.
Qed.
(* only the exponent modulo the length matters *)
Lemma V_period : forall k a b, (k <= N)%nat -> V (p2 k) (a + p2 k * b)%Z = V (p2 k) a.
Proof. intros k a b Hk. destruct HV as (Ha & _). rewrite Ha, V_mult by lia. ring. Qed.
Lemma V_half : forall k a, (S k <= N)%nat -> V (p2 (S k)) (a + p2 k)%Z = (- V (p2 (S k)) a)%kk.
Proof. intros k a Hk. destruct HV as (Ha & _ & Hm & _). rewrite Ha, Hm by lia. ring. Qed.
Lemma V_odd : forall k r, (S k <= N)%nat -> V (p2 (S k)) (p2 k * (2 * r + 1))%Z = (fopp K (f1 K)).
Proof.
  intros k r Hk. replace (p2 k * (2 * r + 1))%Z with (p2 k + p2 (S k) * r)%Z by (rewrite p2_S; lia).
  rewrite V_period by lia. destruct HV as (_ & _ & Hm & _). apply Hm. lia.
Qed.

(* the sum over a block of 2h points, by its two halves *)
Lemma fsum_halves : forall h f, 0 <= h ->
  fsum K 0 (2 * h)%Z f = fsum K 0 h (fun m => (f m + f (m + h)%Z)%kk).
Proof.
  intros h f Hh. rewrite fsum_add. rewrite (fsum_split K 0%Z h (2 * h)%Z) by lia. f_equal.
  assert (G : forall m, 0 <= m -> fsum K h (h + m)%Z f = fsum K 0%Z m (fun i => f (i + h)%Z)).
  { apply natlike_ind.
    - now rewrite !fsum_empty by lia.
    - intros m Hm IH. replace (h + Z.succ m)%Z with ((h + m) + 1)%Z by lia. unfold Z.succ.
      rewrite !fsum_snoc by lia. rewrite IH. f_equal. f_equal. lia. }
  rewrite <- G by assumption. f_equal. lia.
Qed.

Section Levels.
Variable inv : bool.
Hypothesis Winv : W inv = V.

Lemma levels_ok : forall k c n f x, (k <= N)%nat -> 0 < c -> n = (c * p2 k)%Z -> (n <= 2 ^ 29)%Z -> (k <= f)%nat ->
  exists y, levels K W f inv n (p2 k) x = Some y /\
    forall q j, 0 <= q < c -> 0 <= j < p2 k ->
      y (q * p2 k + j)%Z = fsum K 0%Z (p2 k) (fun m => (x (q * p2 k + m)%Z * V (p2 k) (m * rev k j)%Z)%kk).
Proof.
  induction k as [|k IH]; intros c n f x HN Hc Hn Hb Hf.
  - exists x. split.
    + destruct f; reflexivity.
    + intros q j Hq Hj. change (p2 0) with 1%Z in *. assert (j = 0%Z) by lia. subst j.
      rewrite fsum_cons, fsum_empty by lia.
      destruct HV as (_ & _ & _ & H1). rewrite H1. ring.
  - destruct f as [|f]; [lia|]. pose proof (p2_pos k) as Hp.
    cbn [levels]. rewrite p2_S in *. rewrite quot2 by lia. replace (0 <? p2 k) with true by lia.
    destruct (level_ok inv (p2 k) c n x) as (y & Ey & Hy); try lia. rewrite Ey. cbn [bind].
    destruct (IH (2 * c)%Z n f y) as (z & Ez & Hz); try lia. exists z. split; [exact Ez|].
    intros q j Hq Hj.
    destruct (split_high k j) as (d & i & Hd & Hi & ->); [rewrite p2_S; lia|].
    replace (q * (2 * p2 k) + (d * p2 k + i))%Z with ((2 * q + d) * p2 k + i)%Z by lia.
    rewrite Hz by lia. rewrite rev_high by assumption. rewrite Winv in Hy.
    rewrite fsum_halves by lia. rewrite <- p2_S. pose proof (rev_bound k i Hi) as Hr. set (r := rev k i) in *.
    destruct HV as (Ha & H2 & Hm & H1).
    apply fsum_ext. intros m Hmm.
    assert (Hin : (2 * q + d) * p2 k + m < n) by (subst n; destruct Hd; subst d; nia).
    assert (Hin0 : 0 <= (2 * q + d) * p2 k + m) by (destruct Hd; subst d; nia).
    rewrite Hy by lia.
    assert (EM : ((2 * q + d) * p2 k + m) mod (2 * p2 k) = (d * p2 k + m)%Z).
    { replace ((2 * q + d) * p2 k + m)%Z with ((d * p2 k + m) + q * (2 * p2 k))%Z by lia. rewrite Z_mod_plus_full. apply Z.mod_small. destruct Hd; subst d; lia. }
    rewrite EM.
    assert (Vh : V (p2 (S k)) ((m + p2 k) * (2 * r + d))%Z =
                 (V (p2 (S k)) (m * (2 * r + d))%Z * V (p2 (S k)) (p2 k * (2 * r + d))%Z)%kk).
    { rewrite <- Ha by lia. f_equal. lia. }
    assert (Vk : V (p2 k) (m * r)%Z = V (p2 (S k)) (2 * (m * r))%Z) by (symmetry; apply H2; lia).
    rewrite Vk. rewrite Vh.
    destruct Hd as [-> | ->].
    + replace (0 * p2 k + m <? p2 k)%Z with true by lia.
      replace (p2 k * (2 * r + 0))%Z with (p2 (S k) * r)%Z by (rewrite p2_S; lia). rewrite V_mult by lia.
      replace ((2 * q + 0) * p2 k + m)%Z with (q * (2 * p2 k) + m)%Z by lia.
      replace (m * (2 * r + 0))%Z with (2 * (m * r))%Z by lia.
      rewrite <- p2_S.
      replace (q * p2 (S k) + (m + p2 k))%Z with (q * p2 (S k) + m + p2 k)%Z by lia. ring.
    + replace (1 * p2 k + m <? p2 k)%Z with false by lia.
      rewrite V_odd by lia.
      replace (1 * p2 k + m - p2 k)%Z with m by lia. rewrite <- p2_S.
      replace ((2 * q + 1) * p2 k + m - p2 k)%Z with (q * p2 (S k) + m)%Z by (rewrite p2_S; lia).
      replace ((2 * q + 1) * p2 k + m)%Z with (q * p2 (S k) + (m + p2 k))%Z by (rewrite p2_S; lia).
      replace (m * (2 * r + 1))%Z with (2 * (m * r) + m)%Z by lia. rewrite Ha by lia. ring.
Qed.
End Levels.

(* sums of powers of a root *)
Lemma root_sum : forall k r, (k <= N)%nat -> 0 < r < p2 k -> fsum K 0%Z (p2 k) (fun m => V (p2 k) (m * r)%Z) = 0%kk.
Proof.
  induction k as [|k IH]; intros r HN Hr; [unfold p2 in Hr; cbn in Hr; lia|].
  rewrite p2_S at 1. pose proof (p2_pos k). rewrite fsum_halves by lia. destruct HV as (Ha & H2 & Hm & H1).
  assert (D := Z.div_mod r 2 ltac:(lia)). assert (B := Z.mod_pos_bound r 2 ltac:(lia)).
  assert (E : r mod 2 = 0 \/ r mod 2 = 1) by lia. rewrite p2_S in Hr. destruct E as [E|E].
  - transitivity (fsum K 0%Z (p2 k) (fun m => ((1 + 1) * V (p2 k) (m * (r / 2))%Z)%kk)).
    + apply fsum_ext. intros m Hmm.
      replace ((m + p2 k) * r)%Z with (m * r + p2 (S k) * (r / 2))%Z by (rewrite p2_S; rewrite D at 3; rewrite E; lia).
      rewrite V_period by lia. replace (m * r)%Z with (2 * (m * (r / 2)))%Z by (rewrite D at 2; rewrite E; lia).
      rewrite H2 by lia. ring.
    + rewrite fsum_scale. rewrite IH by lia. ring.
  - apply fsum_zero. intros m Hmm.
    replace ((m + p2 k) * r)%Z with (m * r + p2 k * (2 * (r / 2) + 1))%Z by (rewrite D at 3; rewrite E; lia).
    rewrite Ha, V_odd by lia. ring.
Qed.
End Roots.

(* ---------- unscramble ---------- *)
Lemma aswap_ok : forall n i j x, 0 <= i < n -> 0 <= j < n ->
  exists y, aswap K n i j x = Some y /\ forall p, y p = if p =? j then x i else if p =? i then x j else x p.
Proof.
  intros n i j x Hi Hj. unfold aswap. rewrite !aget_in by assumption. cbn [bind]. rewrite aset_in by assumption. cbn [bind].
  rewrite aset_in by assumption. eexists. split; [reflexivity|]. reflexivity.
Qed.
Lemma unscramble_ok : forall k x, exists y, unscramble K (p2 k) x = Some y /\ forall p, 0 <= p < p2 k -> y p = x (rev k p).
Proof.
  intros k x. pose proof (p2_pos k) as Hp. unfold unscramble.
  destruct (for_up_ind _ (fun i (s : Z * (Z -> F K)) => fst s = rev k i /\ forall p, 0 <= p < p2 k ->
      snd s p = if (p <? i) || (rev k p <? i) then x (rev k p) else x p)
    (fun i (s : Z * (Z -> F K)) =>
      let (j, x) := s in
      let* x := if i <? j then aswap K (p2 k) i j x else Some x in
      let* j := next_rev (Z.to_nat (p2 k)) (Z.quot (p2 k) 2) j in
      Some (j, x)) 0%Z (p2 k - 1)%Z (0%Z, x)) as ([j y] & Ey & Hj & Hy).
  - lia.
  - cbn [fst snd]. split; [now rewrite rev_0|]. intros p Hpp. pose proof (rev_bound k p Hpp).
    replace ((p <? 0) || (rev k p <? 0)) with false by lia. reflexivity.
  - intros i [j y] Hi [Ej Hy]. cbn [fst snd] in Ej, Hy. subst j.
    destruct k as [|k]; [unfold p2 in Hi; cbn in Hi; lia|].
    pose proof (rev_bound (S k) i ltac:(lia)) as Hr.
    replace (Z.quot (p2 (S k)) 2) with (p2 k) by (rewrite (p2_S k), quot2; [reflexivity|pose proof (p2_pos k); lia]).
    rewrite next_rev_ok by (try lia; pose proof (p2_S k); assert (Z.of_nat k < p2 k) by (unfold p2; apply Z.pow_gt_lin_r; lia); lia).
    assert (G : exists z, (if i <? rev (S k) i then aswap K (p2 (S k)) i (rev (S k) i) y else Some y) = Some z /\
       forall p, 0 <= p < p2 (S k) -> z p = if (p <? i + 1)%Z || (rev (S k) p <? i + 1)%Z then x (rev (S k) p) else x p).
    { destruct (i <? rev (S k) i) eqn:E.
      - destruct (aswap_ok (p2 (S k)) i (rev (S k) i) y) as (z & Ez & Hz); try lia. exists z. split; [exact Ez|].
        intros p Hpp. rewrite Hz. pose proof (rev_rev (S k) i ltac:(lia)) as RR. pose proof (rev_rev (S k) p Hpp) as RP.
        destruct (p =? rev (S k) i) eqn:E1.
        + assert (Ep : p = rev (S k) i) by lia. rewrite Ep, RR. rewrite Hy by lia.
          replace ((i <? i) || (rev (S k) i <? i)) with false by lia.
          replace ((rev (S k) i <? i + 1) || (i <? i + 1))%Z with true by lia. reflexivity.
        + destruct (p =? i) eqn:E2.
          * assert (Ep : p = i) by lia. subst p. rewrite Hy by lia. rewrite RR.
            replace ((rev (S k) i <? i) || (i <? i)) with false by lia.
            replace ((i <? i + 1) || (rev (S k) i <? i + 1))%Z with true by lia. reflexivity.
          * rewrite Hy by assumption.
            assert (rev (S k) p <> i) by (intros X; rewrite <- X in E1; lia).
            replace ((p <? i + 1) || (rev (S k) p <? i + 1))%Z with ((p <? i) || (rev (S k) p <? i)) by lia. reflexivity.
      - exists y. split; [reflexivity|]. intros p Hpp. rewrite Hy by assumption.
        pose proof (rev_rev (S k) i ltac:(lia)) as RR. pose proof (rev_rev (S k) p Hpp) as RP.
        destruct ((p <? i) || (rev (S k) p <? i)) eqn:E1.
        + replace ((p <? i + 1) || (rev (S k) p <? i + 1))%Z with true by lia. reflexivity.
        + destruct ((p <? i + 1) || (rev (S k) p <? i + 1))%Z eqn:E2; [|reflexivity].
          assert (Ep : p = i \/ rev (S k) p = i) by lia. f_equal. destruct Ep as [Ep|Ep].
          * subst p. lia.
          * assert (p = rev (S k) i) by congruence. lia. }
    destruct G as (z & Ez & Hz). rewrite Ez. cbn [bind]. eexists. split; [reflexivity|]. cbn [fst snd].
    split; [reflexivity|exact Hz].
  - exists y. rewrite Ey. cbn [bind snd fst] in *. split; [reflexivity|]. intros p Hpp. rewrite Hy by assumption.
    destruct ((p <? p2 k - 1) || (rev k p <? p2 k - 1))%Z eqn:E; [reflexivity|].
    pose proof (rev_bound k p Hpp). f_equal. lia.
Qed.

Lemma fix_level_ok : forall n x, 0 <= n -> exists y, fix_level K n x = Some y /\
  forall i, 0 <= i < n -> y i = (x i / of_Z K n)%kk.
Proof.
  intros n x Hn. unfold fix_level.
  destruct (for_up_ind _ (fun i y => forall p, y p = if (0 <=? p) && (p <? i) then (x p / of_Z K n)%kk else x p)
    (fun i x => let* a := aget K n x i in aset K n x i (fdiv K a (of_Z K n))) 0%Z n x) as (y & Ey & Hy).
  - assumption.
  - intros p. replace ((0 <=? p) && (p <? 0)) with false by lia. reflexivity.
  - intros i y Hi Hy. rewrite aget_in by assumption. cbn [bind]. rewrite aset_in by assumption.
    eexists. split; [reflexivity|]. intros p. cbn beta. destruct (p =? i) eqn:E.
    + assert (p = i) by lia. subst p. rewrite Hy. replace ((0 <=? i) && (i <? i)) with false by lia.
      replace ((0 <=? i) && (i <? i + 1)%Z) with true by lia. reflexivity.
    + rewrite Hy. replace ((0 <=? p) && (p <? i + 1)%Z) with ((0 <=? p) && (p <? i)) by lia. reflexivity.
  - exists y. split; [exact Ey|]. intros i Hi. rewrite Hy. replace ((0 <=? i) && (i <? n)) with true by lia. reflexivity.
Qed.

Lemma fft_ok : forall k inv x, (k <= 29)%nat -> roots k (W inv) ->
  exists y, fft K W (p2 k) inv x = Some y /\ forall i, 0 <= i < p2 k ->
    y i = (let s := fsum K 0%Z (p2 k) (fun m => (x m * W inv (p2 k) (m * i)%Z)%kk) in if inv then s else s / of_Z K (p2 k))%kk.
Proof.
  intros k inv x Hk HR. pose proof (p2_pos k) as Hp. unfold fft.
  assert (Hb : p2 k <= 2 ^ 29) by (unfold p2; apply Z.pow_le_mono_r; lia).
  assert (Hf : (k <= Z.to_nat (p2 k))%nat) by (assert (Z.of_nat k < p2 k) by (unfold p2; apply Z.pow_gt_lin_r; lia); lia).
  destruct (levels_ok (W inv) k HR inv eq_refl k 1%Z (p2 k) (Z.to_nat (p2 k)) x) as (y & Ey & Hy); try lia.
  rewrite Ey. cbn [bind]. destruct (unscramble_ok k y) as (z & Ez & Hz). rewrite Ez. cbn [bind].
  assert (G : forall i, 0 <= i < p2 k -> z i = fsum K 0%Z (p2 k) (fun m => (x m * W inv (p2 k) (m * i)%Z)%kk)).
  { intros i Hi. rewrite Hz by assumption. specialize (Hy 0%Z (rev k i) ltac:(lia) (rev_bound k i Hi)).
    rewrite Z.mul_0_l, Z.add_0_l in Hy. rewrite Hy. apply fsum_ext. intros m Hm. rewrite Z.add_0_l, rev_rev by assumption. reflexivity. }
  destruct inv.
  - exists z. split; [reflexivity|exact G].
  - destruct (fix_level_ok (p2 k) z) as (u & Eu & Hu); [lia|]. exists u. split; [exact Eu|].
    intros i Hi. rewrite Hu, G by assumption. reflexivity.
Qed.

(* the product of the two transforms: each of them applied to the result of the other *)
Lemma of_Z_sum : forall n a, fsum K 0%Z n (fun _ => a) = (of_Z K n * a)%kk.
Proof. intros n a. unfold of_Z. rewrite <- fsum_scale_r. apply fsum_ext. intros; ring. Qed.

Lemma dft_dft : forall k U V x i, roots k U -> roots k V -> (forall a, (U (p2 k) a * V (p2 k) a)%kk = 1%kk) -> 0 <= i < p2 k ->
  fsum K 0%Z (p2 k) (fun j => (fsum K 0%Z (p2 k) (fun m => (x m * U (p2 k) (m * j)%Z)%kk) * V (p2 k) (j * i)%Z)%kk)
  = (of_Z K (p2 k) * x i)%kk.
Proof.
  intros k U V x i HU HV HUV Hi. pose proof (p2_pos k) as Hp.
  transitivity (fsum K 0%Z (p2 k) (fun j => fsum K 0%Z (p2 k) (fun m => (x m * (U (p2 k) (m * j)%Z * V (p2 k) (j * i)%Z))%kk))).
  { apply fsum_ext. intros j Hj. rewrite <- fsum_scale_r. apply fsum_ext. intros. ring. }
  rewrite fsum_swap.
  transitivity (fsum K 0%Z (p2 k) (fun m => (x m * fsum K 0%Z (p2 k) (fun j => (U (p2 k) (m * j)%Z * V (p2 k) (j * i)%Z)%kk))%kk)).
  { apply fsum_ext. intros m Hm. apply fsum_scale. }
  assert (Z0 : forall m, 0 <= m < p2 k -> m <> i ->
    (x m * fsum K 0%Z (p2 k) (fun j => (U (p2 k) (m * j)%Z * V (p2 k) (j * i)%Z)%kk))%kk = 0%kk).
  { intros m Hm Hne. replace (fsum K 0%Z (p2 k) (fun j => (U (p2 k) (m * j)%Z * V (p2 k) (j * i)%Z)%kk)) with (f0 K); [ring|symmetry].
    destruct (Z_lt_dec i m) as [L|L].
    - transitivity (fsum K 0%Z (p2 k) (fun j => U (p2 k) (j * (m - i))%Z)).
      + apply fsum_ext. intros j Hj. replace (m * j)%Z with (j * (m - i) + j * i)%Z by lia.
        rewrite (proj1 HU) by lia.
        transitivity ((U (p2 k) (j * (m - i))%Z * (U (p2 k) (j * i)%Z * V (p2 k) (j * i)%Z))%kk); [ring|rewrite HUV; ring].
      + apply (root_sum U k HU); lia.
    - transitivity (fsum K 0%Z (p2 k) (fun j => V (p2 k) (j * (i - m))%Z)).
      + apply fsum_ext. intros j Hj. replace (j * i)%Z with (j * (i - m) + m * j)%Z by lia.
        rewrite (proj1 HV) by lia.
        transitivity ((V (p2 k) (j * (i - m))%Z * (U (p2 k) (m * j)%Z * V (p2 k) (m * j)%Z))%kk); [ring|rewrite HUV; ring].
      + apply (root_sum V k HV); lia. }
  rewrite (fsum_one K 0%Z (p2 k) _ i Hi Z0).
  transitivity ((x i * fsum K 0%Z (p2 k) (fun _ => 1))%kk).
  - f_equal. apply fsum_ext. intros j Hj. rewrite (Z.mul_comm i j). apply HUV.
  - unfold of_Z. ring.
Qed.
End Proofs.
