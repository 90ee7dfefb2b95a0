(* Lemmas about Interp_Model.v *)
Require Import ZArith QArith Qabs Lqa Lia List Bool.
Require Import Verif.Qnum Verif.Interp_Model.
Import ListNotations.
Local Open Scope Q_scope.

Definition key (t : list (Q * Q)) (i : nat) : Q := fst (nth i t (0, 0)).
Definition valu (t : list (Q * Q)) (i : nat) : Q := snd (nth i t (0, 0)).

(* keys do not decrease *)
Definition nondec (t : list (Q * Q)) : Prop :=
  forall i j, (i <= j)%nat -> (j < length t)%nat -> key t i <= key t j.

Lemma nth_error_key : forall t i, (i < length t)%nat -> nth_error t i = Some (key t i, valu t i).
Proof.
  intros t i H. rewrite (nth_error_nth' t (0, 0) H). unfold key, valu. now destruct (nth i t (0, 0)).
Qed.

Lemma div2_lt : forall n, (Nat.div2 (S n) < S n)%nat.
Proof. intros. apply Nat.lt_div2. lia. Qed.

Lemma upper_bound_spec : forall t x fuel first len,
  (len <= fuel)%nat -> (first + len <= length t)%nat ->
  exists u, upper_bound fuel t x first len = Val u /\ (first <= u <= first + len)%nat /\
    ((first < u)%nat -> key t (u - 1) <= x) /\ ((u < first + len)%nat -> x < key t u).
Proof.
  intros t x; induction fuel as [|f IH]; intros first len Hf Hl.
  - assert (len = 0)%nat by lia; subst. exists first. cbn. repeat split; lia.
  - destruct len as [|n]; [exists first; cbn; repeat split; lia|].
    cbn [upper_bound]. set (half := Nat.div2 (S n)). assert (Hh : (half < S n)%nat) by apply div2_lt.
    rewrite nth_error_key by lia. unfold key_below. cbn [fst].
    destruct (qltb_spec x (key t (first + half))) as [L|L].
    + destruct (IH first half) as (u & E & B & A & C); [lia|lia|].
      exists u. split; [exact E|]. split; [lia|]. split; [exact A|].
      intros _. destruct (Nat.eq_dec u (first + half)) as [-> |N]; [exact L|apply C; lia].
    + destruct (IH (S (first + half)) (S n - half - 1)%nat) as (u & E & B & A & C); [lia|lia|].
      exists u. split; [exact E|]. split; [lia|]. split; [|intros; apply C; lia].
      intros _. destruct (Nat.eq_dec u (S (first + half))) as [-> |N]; [|apply A; lia].
      replace (S (first + half) - 1)%nat with (first + half)%nat by lia. lra.
Qed.

(* ---------- copies of a table ---------- *)

Fixpoint copies (k : nat) (raw : list (Q * Q)) : list (Q * Q) :=
  match k with O => [] | S k' => raw ++ copies k' raw end.

Lemma copies_length : forall k raw, length (copies k raw) = (k * length raw)%nat.
Proof. induction k; intros; cbn; [reflexivity|]. now rewrite app_length, IHk. Qed.

Lemma nth_copies : forall k raw q r, (q < k)%nat -> (r < length raw)%nat ->
  nth (q * length raw + r) (copies k raw) (0, 0) = nth r raw (0, 0).
Proof.
  induction k; intros raw q r Hq Hr; [lia|]. cbn [copies]. destruct q as [|q].
  - cbn. now rewrite app_nth1.
  - rewrite app_nth2 by (cbn; lia).
    replace (S q * length raw + r - length raw)%nat with (q * length raw + r)%nat by (cbn; lia).
    apply IHk; lia.
Qed.

Lemma copies_snoc : forall k raw, copies (S k) raw = copies k raw ++ raw.
Proof.
  induction k; intros; cbn in *; [now rewrite app_nil_r|]. rewrite IHk, app_assoc at 1. 
  now rewrite <- app_assoc.
Qed.

Lemma split_index : forall n u, (0 < n)%nat -> exists q r, (u = q * n + r)%nat /\ (r < n)%nat.
Proof.
  intros n u Hn. exists (u / n)%nat, (u mod n)%nat. split.
  - rewrite Nat.mul_comm. apply Nat.div_mod. lia.
  - apply Nat.mod_upper_bound. lia.
Qed.

Section Copies.
Variables (k : nat) (raw : list (Q * Q)).
Hypothesis Hk : (1 <= k)%nat.
Hypothesis Hs : nondec raw.
Hypothesis Hn : (2 <= length raw)%nat.

(* the interval found in k copies is an interval of the table itself *)
Lemma search_copies : forall x, exists u q r,
  upper_bound (length (copies k raw)) (copies k raw) x 1 (length (copies k raw) - 1 - 1) = Val u /\
  (q < k)%nat /\ (1 <= r < length raw)%nat /\ u = (q * length raw + r)%nat /\
  nth_error (copies k raw) u = Some (key raw r, valu raw r) /\
  nth_error (copies k raw) (u - 1) = Some (key raw (r - 1), valu raw (r - 1)) /\
  (u = 1%nat \/ key raw (r - 1) <= x) /\
  (u = (length (copies k raw) - 1)%nat \/ x < key raw r).
Proof.
  intros x. pose proof (copies_length k raw) as CL.
  set (T := copies k raw) in *. set (n := length raw) in *.
  assert (TL : (n <= length T)%nat) by (rewrite CL; clear - Hk; nia).
  destruct (upper_bound_spec T x (length T) 1 (length T - 1 - 1)) as (u & E & B & A & C); [lia|lia|].
  destruct (split_index n u) as (q & r & Eu & Hr); [lia|].
  assert (Hq : (q < k)%nat) by (clear - B Eu CL Hn TL; nia).
  assert (KT : forall q r, (q < k)%nat -> (r < n)%nat -> key T (q * n + r) = key raw r /\ valu T (q * n + r) = valu raw r).
  { intros q' r' H1 H2. unfold key, valu, T, n. rewrite nth_copies by assumption. auto. }
  destruct r as [|r].
  - exfalso. destruct q as [|q]; [lia|].
    assert (U2 : (2 <= u)%nat) by (clear - Eu Hn; nia).
    assert (P1 : key T (u - 1) <= x) by (apply A; lia).
    assert (P2 : x < key T u).
    { apply C. enough (u <> length T - 1)%nat by lia. rewrite CL, Eu. clear - Hq Hn. fold n in Hn. nia. }
    replace (u - 1)%nat with (q * n + (n - 1))%nat in P1 by (clear - Eu Hn; fold n in Hn; nia).
    rewrite (proj1 (KT q (n - 1)%nat ltac:(lia) ltac:(lia))) in P1.
    rewrite Eu, (proj1 (KT (S q) O Hq ltac:(lia))) in P2.
    pose proof (Hs O (n - 1)%nat ltac:(lia) ltac:(fold n; lia)). lra.
  - exists u, q, (S r). fold n. split; [exact E|]. split; [exact Hq|]. split; [lia|]. split; [exact Eu|].
    destruct (KT q (S r) Hq Hr) as [K1 V1]. destruct (KT q r Hq ltac:(lia)) as [K2 V2].
    assert (Eu' : (u - 1 = q * n + r)%nat) by lia.
    replace (S r - 1)%nat with r by lia.
    rewrite !nth_error_key by lia. rewrite Eu', Eu, K1, V1, K2, V2.
    split; [reflexivity|]. split; [reflexivity|]. rewrite <- Eu. split.
    + destruct (Nat.eq_dec u 1) as [|N]; [now left|right]. rewrite <- K2, <- Eu'. apply A. lia.
    + destruct (Nat.eq_dec u (length T - 1)) as [|N]; [now left|right]. rewrite <- K1, <- Eu. apply C. lia.
Qed.

Definition line_of (i : nat) (x : Q) : res fpoly :=
  let s := (valu raw (S i) - valu raw i) / (key raw (S i) - key raw i) in
  Val (mk_fpoly x (valu raw i + (x - key raw i) * s) s).
Definition slope_from (i : nat) (s x : Q) : res fpoly :=
  Val (mk_fpoly x (valu raw i + (x - key raw i) * s) s).

Lemma unfold_interp : forall x below above u r,
  upper_bound (length (copies k raw)) (copies k raw) x 1 (length (copies k raw) - 1 - 1) = Val u ->
  (1 <= r)%nat ->
  nth_error (copies k raw) u = Some (key raw r, valu raw r) ->
  nth_error (copies k raw) (u - 1) = Some (key raw (r - 1), valu raw (r - 1)) ->
  interpolate (copies k raw) x below above =
    match
      match above with
      | Some a => if Nat.eqb u (length (copies k raw) - 1) && qltb (key raw r) x then Some a else None
      | None => None
      end,
      match below with
      | Some b => if Nat.eqb u 1 && qltb x (key raw (r - 1)) then Some b else None
      | None => None
      end with
    | Some a, _ => slope_from r a x
    | None, Some b => slope_from (r - 1) b x
    | None, None => if qleb (key raw r) (key raw (r - 1)) then Throw else line_of (r - 1) x
    end.
Proof.
  intros x below above u r E Hr N1 N2.
  pose proof (copies_length k raw) as CL.
  assert (2 <= length (copies k raw))%nat by (rewrite CL; clear - Hk Hn; nia).
  destruct (copies k raw) as [|p [|p' T]] eqn:ET; [cbn in H; lia|cbn in H; lia|].
  unfold interpolate. rewrite E, N1, N2. unfold line_of.
  replace (S (r - 1)) with r by lia. reflexivity.
Qed.

Lemma interp_inner : forall x below above i, (S i < length raw)%nat ->
  key raw i <= x -> x < key raw (S i) ->
  interpolate (copies k raw) x below above = line_of i x.
Proof.
  intros x below above i Hi H1 H2.
  destruct (search_copies x) as (u & q & r & E & Hq & Hr & Eu & N1 & N2 & L & U).
  assert (Er : r = S i).
  { assert (r - 1 <= i)%nat.
    { destruct L as [L|L].
      - assert (q = 0 /\ r = 1)%nat as [-> ->] by (clear - L Eu Hr Hn; nia). lia.
      - destruct (le_lt_dec (r - 1) i) as [|G]; auto. pose proof (Hs (S i) (r - 1)%nat ltac:(lia) ltac:(lia)). lra. }
    assert (i < r)%nat.
    { destruct U as [U|U].
      - rewrite copies_length in U. assert (r = length raw - 1)%nat by (clear - U Eu Hr Hn Hq; nia). lia.
      - destruct (le_lt_dec r i) as [G|]; auto. pose proof (Hs r i ltac:(lia) ltac:(lia)). lra. }
    lia. }
  subst r. rewrite (unfold_interp x below above u (S i) E ltac:(lia) N1 N2).
  replace (S i - 1)%nat with i by lia.
  destruct (qltb_spec (key raw (S i)) x); [lra|]. destruct (qltb_spec x (key raw i)); [lra|].
  rewrite !andb_false_r. destruct (qleb_spec (key raw (S i)) (key raw i)); [lra|].
  destruct above, below; reflexivity.
Qed.

Lemma interp_low : forall x below above, x < key raw 0 ->
  interpolate (copies k raw) x below above =
    match below with
    | Some b => slope_from 0 b x
    | None => if qleb (key raw 1) (key raw 0) then Throw else line_of 0 x
    end.
Proof.
  intros x below above H.
  destruct (search_copies x) as (u & q & r & E & Hq & Hr & Eu & N1 & N2 & L & U).
  destruct L as [L|L]; [|pose proof (Hs O (r - 1)%nat ltac:(lia) ltac:(lia)); lra].
  assert (q = 0 /\ r = 1)%nat as [-> ->] by (clear - L Eu Hr Hn; nia).
  rewrite (unfold_interp x below above u 1 E ltac:(lia) N1 N2). cbn [Nat.sub] in *.
  pose proof (Hs O 1%nat ltac:(lia) ltac:(lia)).
  destruct (qltb_spec (key raw 1) x); [lra|]. destruct (qltb_spec x (key raw 0)); [|lra].
  rewrite andb_false_r. rewrite L. cbn [Nat.eqb andb].
  destruct above, below; reflexivity.
Qed.

Lemma interp_high : forall x below above, let n := length raw in key raw (n - 1) <= x ->
  interpolate (copies k raw) x below above =
    match above with
    | Some a => if qltb (key raw (n - 1)) x then slope_from (n - 1) a x
                else if qleb (key raw (n - 1)) (key raw (n - 2)) then Throw else line_of (n - 2) x
    | None => if qleb (key raw (n - 1)) (key raw (n - 2)) then Throw else line_of (n - 2) x
    end.
Proof.
  intros x below above n H.
  destruct (search_copies x) as (u & q & r & E & Hq & Hr & Eu & N1 & N2 & L & U).
  destruct U as [U|U]; [|pose proof (Hs r (n - 1)%nat ltac:(lia) ltac:(unfold n; lia)); lra].
  assert (r = n - 1)%nat.
  { unfold n. rewrite copies_length in U. clear - U Eu Hr Hn Hq; nia. }
  subst r. rewrite (unfold_interp x below above u (n - 1) E ltac:(lia) N1 N2).
  replace (n - 1 - 1)%nat with (n - 2)%nat in * by lia. rewrite U, Nat.eqb_refl. cbn [andb].
  pose proof (Hs (n - 2)%nat (n - 1)%nat ltac:(lia) ltac:(unfold n; lia)).
  destruct (qltb_spec x (key raw (n - 2))); [lra|]. rewrite andb_false_r.
  destruct above, below; destruct (qltb (key raw (n - 1)) x); reflexivity.
Qed.
End Copies.

Lemma find_interval : forall t x, nondec t -> (1 <= length t)%nat ->
  key t 0 <= x -> x < key t (length t - 1) ->
  exists i, (S i < length t)%nat /\ key t i <= x /\ x < key t (S i).
Proof.
  intros t x Hs Hn H0 H1.
  assert (G : forall m, (m < length t)%nat -> x < key t m -> exists i, (S i < length t)%nat /\ key t i <= x /\ x < key t (S i)).
  { induction m as [|m IH]; intros Hm Hx; [lra|].
    destruct (Qlt_le_dec x (key t m)) as [L|L]; [apply IH; [lia|exact L]|]. exists m. auto. }
  apply (G (length t - 1)%nat); [lia|exact H1].
Qed.

(* ---------- preparing ---------- *)

Lemma nondec_tail : forall p t, nondec (p :: t) -> nondec t.
Proof. intros p t H i j Hij Hj. apply (H (S i) (S j)); cbn; lia. Qed.

Lemma pwl_push_sorted : forall raw tab last, nondec raw ->
  (forall l, last = Some l -> raw <> [] -> l <= key raw 0) ->
  pwl_push last raw tab = (tab ++ raw, true).
Proof.
  induction raw as [|p r IH]; intros tab last Hs Hl; cbn; [now rewrite app_nil_r|].
  assert (E : (match last with Some l => qltb (fst p) l | None => false end) = false).
  { destruct last as [l|]; auto. destruct (qltb_spec (fst p) l); auto.
    specialize (Hl l eq_refl ltac:(discriminate)). unfold key in Hl; cbn in Hl. lra. }
  rewrite E, IH.
  - now rewrite <- app_assoc.
  - eapply nondec_tail; eauto.
  - intros l [= <-] Hr. destruct r as [|p' r]; [congruence|]. apply (Hs O 1%nat); cbn; lia.
Qed.
