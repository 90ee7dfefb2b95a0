(* C40, C41, C42, C44, C56: the measure functions, the number of Fourier points *)
Require Import ZArith QArith Lqa Lia List Bool.
Require Import Verif.Qnum Verif.Interp_Model Verif.Interp_Proofs Verif.Measure_Model.
Import ListNotations.
Local Open Scope Q_scope.

(* ---------- the window ---------- *)

(* a recorded waveform: times do not decrease, values are below the reserved number *)
Definition recorded (t : list (Q * Q)) : Prop :=
  (forall i j, (i <= j)%nat -> (j < length t)%nat -> fst (nth i t (0, 0)) <= fst (nth j t (0, 0))) /\
  (forall p, In p t -> - BIGBIG < fst p /\ fst p < BIGBIG /\ - BIGBIG < snd p /\ snd p < BIGBIG).
(* the points of a window *)
Definition points (t : list (Q * Q)) (after before : Q) : list (Q * Q) :=
  filter (fun p => qleb after (fst p) && qleb (fst p) before) t.

Lemma lower_bound_spec : forall t x fuel first len,
  (len <= fuel)%nat -> (first + len <= length t)%nat ->
  exists u, lower_bound fuel t x first len = Val u /\ (first <= u <= first + len)%nat /\
    ((first < u)%nat -> key t (u - 1) < x) /\ ((u < first + len)%nat -> x <= key t u).
Proof.
  intros t x; induction fuel as [|f IH]; intros first len Hf Hl.
  - assert (len = 0)%nat by lia; subst. exists first. cbn. repeat split; lia.
  - destruct len as [|n]; [exists first; cbn; repeat split; lia|].
    cbn [lower_bound]. set (half := Nat.div2 (S n)). assert (Hh : (half < S n)%nat) by apply div2_lt.
    rewrite nth_error_key by lia. cbn [fst].
    destruct (qltb_spec (key t (first + half)) x) as [L|L].
    + destruct (IH (S (first + half)) (S n - half - 1)%nat) as (u & E & B & A & C); [lia|lia|].
      exists u. split; [exact E|]. split; [lia|]. split; [|intros; apply C; lia].
      intros _. destruct (Nat.eq_dec u (S (first + half))) as [-> |N]; [|apply A; lia].
      replace (S (first + half) - 1)%nat with (first + half)%nat by lia. exact L.
    + destruct (IH first half) as (u & E & B & A & C); [lia|lia|].
      exists u. split; [exact E|]. split; [lia|]. split; [exact A|].
      intros _. destruct (Nat.eq_dec u (first + half)) as [-> |N]; [lra|apply C; lia].
Qed.

Lemma filter_none : forall A (f : A -> bool) l, (forall x, In x l -> f x = false) -> filter f l = [].
Proof. intros A f l; induction l as [|a l IH]; intros H; cbn; [reflexivity|]. rewrite (H a) by (now left). apply IH. intros x Hx; apply H; now right. Qed.
Lemma filter_all : forall A (f : A -> bool) l, (forall x, In x l -> f x = true) -> filter f l = l.
Proof. intros A f l; induction l as [|a l IH]; intros H; cbn; [reflexivity|]. rewrite (H a) by (now left). f_equal. apply IH. intros x Hx; apply H; now right. Qed.

Lemma in_firstn : forall A (d : A) n l x, In x (firstn n l) -> exists i, (i < n)%nat /\ (i < length l)%nat /\ nth i l d = x.
Proof.
  intros A d n; induction n as [|n IH]; intros [|a l] x H; cbn in *; try contradiction.
  destruct H as [-> |H]; [exists 0%nat; split; [lia|]; split; [lia|reflexivity]|].
  destruct (IH l x H) as (i & A1 & A2 & A3). exists (S i). split; [lia|]. split; [lia|exact A3].
Qed.
Lemma in_skipn : forall A (d : A) n l x, In x (skipn n l) -> exists i, (n <= i)%nat /\ (i < length l)%nat /\ nth i l d = x.
Proof.
  intros A d n; induction n as [|n IH]; intros l x H.
  - cbn in H. destruct (In_nth l x d H) as (i & A1 & A2). exists i. split; [lia|]. split; [exact A1|exact A2].
  - destruct l as [|a l]; cbn in H; [contradiction|]. destruct (IH l x H) as (i & A1 & A2 & A3).
    exists (S i). split; [lia|]. split; [cbn; lia|exact A3].
Qed.

Lemma nth_skipn : forall A (d : A) n l i, nth i (skipn n l) d = nth (n + i) l d.
Proof. intros A d n; induction n as [|n IH]; intros [|a l] i; cbn; try reflexivity; [now destruct i|]. apply IH. Qed.

Lemma window_points : forall t after before, recorded t ->
  exists b e, window t after before = Val (b, e) /\ visited t (b, e) = points t after before /\
    (b <= length t)%nat /\ (e <= length t)%nat /\
    (forall i, (i < b)%nat -> key t i < after) /\ (forall i, (b <= i < length t)%nat -> after <= key t i) /\
    (forall i, (i < e)%nat -> key t i <= before) /\ (forall i, (e <= i < length t)%nat -> before < key t i).
Proof.
  intros t after before [S _].
  destruct (lower_bound_spec t after (length t) 0 (length t)) as (b & Eb & Bb & Lb & Hb); [lia|lia|].
  destruct (upper_bound_spec t before (length t) 0 (length t)) as (e & Ee & Be & Le & He); [lia|lia|].
  assert (Lb' : forall i, (i < b)%nat -> key t i < after).
  { intros i Hi. apply Qle_lt_trans with (key t (b - 1)); [apply S; lia|apply Lb; lia]. }
  assert (Hb' : forall i, (b <= i < length t)%nat -> after <= key t i).
  { intros i Hi. apply Qle_trans with (key t b); [apply Hb; lia|apply S; lia]. }
  assert (Le' : forall i, (i < e)%nat -> key t i <= before).
  { intros i Hi. apply Qle_trans with (key t (e - 1)); [apply S; lia|apply Le; lia]. }
  assert (He' : forall i, (e <= i < length t)%nat -> before < key t i).
  { intros i Hi. apply Qlt_le_trans with (key t e); [apply He; lia|apply S; lia]. }
  exists b, e. unfold window. rewrite Eb, Ee. split; [reflexivity|].
  split; [|repeat split; try assumption; lia].
  unfold visited, points. cbn [fst snd].
  rewrite <- (firstn_skipn b t) at 2. rewrite filter_app.
  rewrite (filter_none _ _ (firstn b t)).
  2: { intros x Hx. destruct (in_firstn _ (0, 0) _ _ _ Hx) as (i & A1 & A2 & <-).
       destruct (qleb_spec after (fst (nth i t (0, 0)))) as [X|X]; [|reflexivity]. specialize (Lb' i A1). unfold key in Lb'. lra. }
  cbn [app]. rewrite <- (firstn_skipn (e - b) (skipn b t)) at 2. rewrite filter_app.
  rewrite (filter_all _ _ (firstn (e - b) (skipn b t))).
  2: { intros x Hx. destruct (in_firstn _ (0, 0) _ _ _ Hx) as (i & A1 & A2 & E).
       rewrite skipn_length in A2. rewrite nth_skipn in E. subst x.
       specialize (Hb' (b + i)%nat ltac:(lia)). specialize (Le' (b + i)%nat ltac:(lia)). unfold key in *.
       destruct (qleb_spec after (fst (nth (b + i) t (0, 0)))) as [X|X]; [|lra].
       destruct (qleb_spec (fst (nth (b + i) t (0, 0))) before) as [Y|Y]; [reflexivity|lra]. }
  rewrite (filter_none _ _ (skipn (e - b) (skipn b t))); [now rewrite app_nil_r|].
  intros x Hx. destruct (in_skipn _ (0, 0) _ _ _ Hx) as (i & A1 & A2 & E).
  rewrite skipn_length in A2. rewrite nth_skipn in E. subst x.
  specialize (He' (b + i)%nat ltac:(lia)). unfold key in *.
  destruct (qleb_spec (fst (nth (b + i) t (0, 0))) before) as [Y|Y]; [lra|]. now rewrite andb_false_r.
Qed.

Lemma fold_inv : forall A B (f : B -> A -> B) (P : list A -> B -> Prop) s0 l,
  P [] s0 -> (forall l1 x s, (forall y, In y (l1 ++ [x]) -> In y l) -> P l1 s -> P (l1 ++ [x]) (f s x)) -> P l (fold_left f l s0).
Proof.
  intros A B f P s0 l H0 Hs. revert Hs. induction l as [|x l IH] using rev_ind; intros Hs; [exact H0|].
  rewrite fold_left_app. cbn [fold_left]. apply Hs; [auto|]. apply IH.
  intros l1 y s Hy. apply Hs. intros z Hz. apply in_or_app. left. now apply Hy.
Qed.

(* ---------- C40 ---------- *)

(* the maximum is the value of a point of the window, no point of the window is above it; the
   time is that of the first (last) such point; without points the reserved numbers *)
Theorem C40_max : forall last t after before, recorded t ->
  exists time m, measure_max last t after before = Val (time, m) /\
    let l := points t after before in
    (l = [] -> m = - BIGBIG /\ time = if last then - BIGBIG else BIGBIG) /\
    (l <> [] -> exists l1 l2, l = l1 ++ (time, m) :: l2 /\ (forall p, In p l -> snd p <= m) /\
       (last = false -> forall p, In p l1 -> snd p < m) /\ (last = true -> forall p, In p l2 -> snd p < m)).
Proof.
  intros last t after before Hr. destruct (window_points t after before Hr) as (b & e & E & V & _).
  unfold measure_max. rewrite E, V. set (l := points t after before).
  assert (Hv : forall p, In p l -> - BIGBIG < snd p).
  { intros p Hp. apply filter_In in Hp. now apply (proj2 Hr). }
  destruct (fold_left (max_step last) l ((if last then - BIGBIG else BIGBIG), - BIGBIG)) as [time m] eqn:Ef.
  exists time, m. split; [reflexivity|]. cbv zeta.
  pose (P := fun (l : list (Q * Q)) (s : Q * Q) =>
    (l = [] -> s = ((if last then - BIGBIG else BIGBIG), - BIGBIG)) /\
    (l <> [] -> exists l1 l2, l = l1 ++ s :: l2 /\ (forall p, In p l -> snd p <= snd s) /\
       (last = false -> forall p, In p l1 -> snd p < snd s) /\ (last = true -> forall p, In p l2 -> snd p < snd s))).
  assert (G : P l (time, m)).
  { rewrite <- Ef. apply (fold_inv _ _ (max_step last) P).
    - split; [reflexivity|congruence].
    - intros l1 x s Hin [I0 I1]. split; [intros X; now destruct l1|]. intros _.
      assert (Hx : - BIGBIG < snd x) by (apply Hv, Hin, in_or_app; right; now left).
      unfold max_step.
      destruct (qltb_spec (snd s) (snd x)) as [A|A]; cbn [orb].
      + exists l1, []. split; [now destruct x|]. cbn [snd].
        assert (M : forall p, In p l1 -> snd p < snd x).
        { intros p Hp. destruct l1 as [|q l1]; [contradiction|]. destruct I1 as (k1 & k2 & K & Kb & _); [discriminate|].
          specialize (Kb p Hp). lra. }
        split; [|split; [auto|intros _ p []]].
        intros p Hp. apply in_app_or in Hp. destruct Hp as [Hp|[<- |[]]]; [specialize (M p Hp); lra|lra].
      + assert (N : l1 <> []). { intros ->. rewrite (I0 eq_refl) in A. cbn in A. lra. }
        destruct (I1 N) as (k1 & k2 & K & Kb & Kf & Kl).
        destruct last; cbn [andb].
        * destruct (qeqb_spec (snd x) (snd s)) as [B|B].
          -- exists l1, []. split; [now destruct x|]. cbn [snd]. split; [|split; [discriminate|intros _ p []]].
             intros p Hp. apply in_app_or in Hp. destruct Hp as [Hp|[<- |[]]]; [specialize (Kb p Hp); lra|lra].
          -- exists k1, (k2 ++ [x]). split; [rewrite K, <- app_assoc; reflexivity|].
             assert (B' : snd x < snd s) by (destruct (Qlt_le_dec (snd x) (snd s)); [assumption|exfalso; apply B; lra]).
             split; [|split; [discriminate|]].
             ++ intros p Hp. apply in_app_or in Hp. destruct Hp as [Hp|[<- |[]]]; [auto|lra].
             ++ intros _ p Hp. apply in_app_or in Hp. destruct Hp as [Hp|[<- |[]]]; [auto|exact B'].
        * exists k1, (k2 ++ [x]). split; [rewrite K, <- app_assoc; reflexivity|].
          split; [|split; [auto|discriminate]].
          intros p Hp. apply in_app_or in Hp. destruct Hp as [Hp|[<- |[]]]; [auto|lra]. }
  destruct G as [G0 G1]. split.
  - intros X. specialize (G0 X). inversion G0. split; reflexivity.
  - exact G1.
Qed.

Theorem C40_min : forall last t after before, recorded t ->
  exists time m, measure_min last t after before = Val (time, m) /\
    let l := points t after before in
    (l = [] -> m = BIGBIG /\ time = if last then - BIGBIG else BIGBIG) /\
    (l <> [] -> exists l1 l2, l = l1 ++ (time, m) :: l2 /\ (forall p, In p l -> m <= snd p) /\
       (last = false -> forall p, In p l1 -> m < snd p) /\ (last = true -> forall p, In p l2 -> m < snd p)).
Proof.
  intros last t after before Hr. destruct (window_points t after before Hr) as (b & e & E & V & _).
  unfold measure_min. rewrite E, V. set (l := points t after before).
  assert (Hv : forall p, In p l -> snd p < BIGBIG).
  { intros p Hp. apply filter_In in Hp. now apply (proj2 Hr). }
  destruct (fold_left (min_step last) l ((if last then - BIGBIG else BIGBIG), BIGBIG)) as [time m] eqn:Ef.
  exists time, m. split; [reflexivity|]. cbv zeta.
  pose (P := fun (l : list (Q * Q)) (s : Q * Q) =>
    (l = [] -> s = ((if last then - BIGBIG else BIGBIG), BIGBIG)) /\
    (l <> [] -> exists l1 l2, l = l1 ++ s :: l2 /\ (forall p, In p l -> snd s <= snd p) /\
       (last = false -> forall p, In p l1 -> snd s < snd p) /\ (last = true -> forall p, In p l2 -> snd s < snd p))).
  assert (G : P l (time, m)).
  { rewrite <- Ef. apply (fold_inv _ _ (min_step last) P).
    - split; [reflexivity|congruence].
    - intros l1 x s Hin [I0 I1]. split; [intros X; now destruct l1|]. intros _.
      assert (Hx : snd x < BIGBIG) by (apply Hv, Hin, in_or_app; right; now left).
      unfold min_step.
      destruct (qltb_spec (snd x) (snd s)) as [A|A]; cbn [orb].
      + exists l1, []. split; [now destruct x|]. cbn [snd].
        assert (M : forall p, In p l1 -> snd x < snd p).
        { intros p Hp. destruct l1 as [|q l1]; [contradiction|]. destruct I1 as (k1 & k2 & K & Kb & _); [discriminate|].
          specialize (Kb p Hp). lra. }
        split; [|split; [auto|intros _ p []]].
        intros p Hp. apply in_app_or in Hp. destruct Hp as [Hp|[<- |[]]]; [specialize (M p Hp); lra|lra].
      + assert (N : l1 <> []). { intros ->. rewrite (I0 eq_refl) in A. cbn in A. lra. }
        destruct (I1 N) as (k1 & k2 & K & Kb & Kf & Kl).
        destruct last; cbn [andb].
        * destruct (qeqb_spec (snd x) (snd s)) as [B|B].
          -- exists l1, []. split; [now destruct x|]. cbn [snd]. split; [|split; [discriminate|intros _ p []]].
             intros p Hp. apply in_app_or in Hp. destruct Hp as [Hp|[<- |[]]]; [specialize (Kb p Hp); lra|lra].
          -- exists k1, (k2 ++ [x]). split; [rewrite K, <- app_assoc; reflexivity|].
             assert (B' : snd s < snd x) by (destruct (Qlt_le_dec (snd s) (snd x)); [assumption|exfalso; apply B; lra]).
             split; [|split; [discriminate|]].
             ++ intros p Hp. apply in_app_or in Hp. destruct Hp as [Hp|[<- |[]]]; [auto|lra].
             ++ intros _ p Hp. apply in_app_or in Hp. destruct Hp as [Hp|[<- |[]]]; [auto|exact B'].
        * exists k1, (k2 ++ [x]). split; [rewrite K, <- app_assoc; reflexivity|].
          split; [|split; [auto|discriminate]].
          intros p Hp. apply in_app_or in Hp. destruct Hp as [Hp|[<- |[]]]; [auto|lra]. }
  destruct G as [G0 G1]. split.
  - intros X. specialize (G0 X). inversion G0. split; reflexivity.
  - exact G1.
Qed.

(* ---------- C41 ---------- *)

Definition T (l : list (Q * Q)) (k : nat) : Q := fst (nth k l (0, 0)).
Definition V (l : list (Q * Q)) (k : nat) : Q := snd (nth k l (0, 0)).

(* point k is the first one beyond the level after the waveform was on the other side *)
Definition crossing (rise : bool) (c : Q) (l : list (Q * Q)) (k : nat) : Prop :=
  let beyond v := if rise then c < v else v < c in
  let under v := if rise then v < c else c < v in
  (k < length l)%nat /\ beyond (V l k) /\
  exists j, (j < k)%nat /\ under (V l j) /\ forall i, (j <= i < k)%nat -> ~ beyond (V l i).

(* [x] is a point of the straight line through points k-1 and k at which it has the value [c] *)
Definition on_segment (l : list (Q * Q)) (k : nat) (c x : Q) : Prop :=
  T l (k - 1) <= x /\ x <= T l k /\
  c * (T l k - T l (k - 1)) == V l (k - 1) * (T l k - x) + V l k * (x - T l (k - 1)).

Lemma nth_snoc : forall (l : list (Q * Q)) x i, (i < length l)%nat -> nth i (l ++ [x]) (0, 0) = nth i l (0, 0).
Proof. intros. now apply app_nth1. Qed.
Lemma nth_last' : forall (l : list (Q * Q)) x, nth (length l) (l ++ [x]) (0, 0) = x.
Proof. intros. rewrite app_nth2 by lia. now rewrite Nat.sub_diag. Qed.

Definition sg (rise : bool) : Q := if rise then 1 else -1.
Definition L (rise : bool) (l : list (Q * Q)) (i : nat) : Q := V l i * sg rise.
(* the waveform is under the level and was not beyond it since *)
Definition armed (rise : bool) (c : Q) (l : list (Q * Q)) : Prop :=
  exists j, (j < length l)%nat /\ L rise l j < c * sg rise /\ forall i, (j <= i < length l)%nat -> L rise l i <= c * sg rise.

Lemma crossing_iff : forall rise c l k, crossing rise c l k <->
  (k < length l)%nat /\ c * sg rise < L rise l k /\
  exists j, (j < k)%nat /\ L rise l j < c * sg rise /\ forall i, (j <= i < k)%nat -> L rise l i <= c * sg rise.
Proof.
  intros rise c l k. unfold crossing, L, sg. destruct rise; split; intros (A & B & j & C & D & E);
    (split; [exact A|]); (split; [lra|]); exists j; (split; [exact C|]); (split; [lra|]); intros i Hi; specialize (E i Hi); lra.
Qed.

Lemma L_snoc : forall rise l x i, (i < length l)%nat -> L rise (l ++ [x]) i = L rise l i.
Proof. intros. unfold L, V. now rewrite nth_snoc. Qed.
Lemma L_last : forall rise l x, L rise (l ++ [x]) (length l) = snd x * sg rise.
Proof. intros. unfold L, V. now rewrite nth_last'. Qed.

Lemma crossing_snoc : forall rise c l x k, (k < length l)%nat -> (crossing rise c (l ++ [x]) k <-> crossing rise c l k).
Proof.
  intros rise c l x k Hk. rewrite !crossing_iff. rewrite app_length, L_snoc by lia.
  split; intros (A & B & j & C & D & E); (split; [cbn in *; lia|]); (split; [exact B|]); exists j; (split; [exact C|]).
  - rewrite L_snoc in D by lia. split; [exact D|]. intros i Hi. specialize (E i Hi). now rewrite L_snoc in E by lia.
  - rewrite L_snoc by lia. split; [exact D|]. intros i Hi. rewrite L_snoc by lia. now apply E.
Qed.
Lemma crossing_snoc1 : forall rise c l x k, crossing rise c (l ++ [x]) k -> (k < length l)%nat -> crossing rise c l k.
Proof. intros rise c l x k H Hk. now apply (crossing_snoc rise c l x k Hk). Qed.
Lemma crossing_last : forall rise c l x, crossing rise c (l ++ [x]) (length l) <-> (armed rise c l /\ c * sg rise < snd x * sg rise).
Proof.
  intros rise c l x. rewrite crossing_iff. rewrite app_length, L_last. unfold armed.
  split.
  - intros (A & B & j & C & D & E). split; [|exact B]. exists j. split; [exact C|]. rewrite L_snoc in D by lia. split; [exact D|].
    intros i Hi. specialize (E i Hi). now rewrite L_snoc in E by lia.
  - intros [(j & C & D & E) B]. split; [cbn; lia|]. split; [exact B|]. exists j. split; [exact C|]. rewrite L_snoc by lia.
    split; [exact D|]. intros i Hi. rewrite L_snoc by lia. now apply E.
Qed.
Lemma armed_snoc : forall rise c l x, armed rise c (l ++ [x]) <->
  (snd x * sg rise < c * sg rise \/ (armed rise c l /\ snd x * sg rise <= c * sg rise)).
Proof.
  intros rise c l x. unfold armed at 1. rewrite app_length. cbn [length]. split.
  - intros (j & A & B & C). destruct (Nat.eq_dec j (length l)) as [-> |N].
    + left. now rewrite L_last in B.
    + right. split.
      * exists j. split; [lia|]. rewrite L_snoc in B by lia. split; [exact B|]. intros i Hi. specialize (C i ltac:(lia)). now rewrite L_snoc in C by lia.
      * specialize (C (length l) ltac:(lia)). now rewrite L_last in C.
  - intros [A|[(j & A & B & C) D]].
    + exists (length l). split; [lia|]. rewrite L_last. split; [exact A|]. intros i Hi. replace i with (length l) by lia. rewrite L_last. lra.
    + exists j. split; [lia|]. rewrite L_snoc by lia. split; [exact B|]. intros i Hi.
      destruct (Nat.eq_dec i (length l)) as [-> |N]; [now rewrite L_last|]. rewrite L_snoc by lia. apply C. lia.
Qed.

(* the time computed from a pair of points *)
Definition xt (c : Q) (lo i : Q * Q) : Q := fst lo + (c - snd lo) / (snd i - snd lo) * (fst i - fst lo).

Definition found (rise : bool) (c : Q) (l : list (Q * Q)) (k : nat) (x : Q) : Prop :=
  crossing rise c l k /\ x == xt c (nth (k - 1) l (0, 0)) (nth k l (0, 0)).

Lemma found_snoc : forall rise c l y k x, (k < length l)%nat -> found rise c l k x -> found rise c (l ++ [y]) k x.
Proof.
  intros rise c l y k x Hk [A B]. split; [now apply crossing_snoc|]. rewrite !nth_snoc by lia. exact B.
Qed.

Definition cinv (last rise : bool) (c : Q) (l : list (Q * Q)) (s : cstat * Q * (Q * Q)) : Prop :=
  let '(st, x, lower) := s in
  match st with
  | DONE => last = false /\ exists k, found rise c l k x /\ forall k', crossing rise c l k' -> (k <= k')%nat
  | _ =>
      (st = READY -> armed rise c l /\ l <> [] /\ lower = nth (length l - 1) l (0, 0)) /\
      (st = WAITING -> ~ armed rise c l) /\
      ((forall k, ~ crossing rise c l k) /\ x = (if last then - BIGBIG else BIGBIG) \/
       (last = true /\ exists k, found rise c l k x /\ forall k', crossing rise c l k' -> (k' <= k)%nat))
  end.

Lemma carry : forall (last : bool) rise c l y x, ~ crossing rise c (l ++ [y]) (length l) ->
  ((forall k, ~ crossing rise c l k) /\ x = (if last then - BIGBIG else BIGBIG) \/
       (last = true /\ exists k, found rise c l k x /\ forall k', crossing rise c l k' -> (k' <= k)%nat)) ->
  ((forall k, ~ crossing rise c (l ++ [y]) k) /\ x = (if last then - BIGBIG else BIGBIG) \/
       (last = true /\ exists k, found rise c (l ++ [y]) k x /\ forall k', crossing rise c (l ++ [y]) k' -> (k' <= k)%nat)).
Proof.
  intros last rise c l y x N H.
  assert (B : forall k, crossing rise c (l ++ [y]) k -> crossing rise c l k).
  { intros k Hk. assert (Hl : (k < length (l ++ [y]))%nat) by (apply Hk). rewrite app_length in Hl. cbn in Hl.
    destruct (Nat.eq_dec k (length l)) as [-> |M]; [contradiction|]. apply (crossing_snoc1 rise c l y k Hk). lia. }
  destruct H as [[H1 H2]|(H1 & k & H2 & H3)].
  - left. split; [|exact H2]. intros k Hk. apply (H1 k). now apply B.
  - right. split; [exact H1|]. exists k. split; [|intros k' Hk'; apply H3; now apply B].
    apply found_snoc; [apply H2|exact H2].
Qed.

Lemma cross_inv : forall last rise c l,
  cinv last rise c l (fold_left (cross_step last (sg rise) (c * sg rise)) l (WAITING, (if last then - BIGBIG else BIGBIG), (0, 0))).
Proof.
  intros last rise c l. apply (fold_inv _ _ _ (cinv last rise c)).
  - cbn. split; [discriminate|]. split; [intros _ (j & A & _); cbn in A; lia|]. left.
    split; [|reflexivity]. intros k (A & _). cbn in A. lia.
  - intros l1 y [[st x] lower] _ I. unfold cross_step. unfold cinv in I.
    assert (NC : ~ (armed rise c l1 /\ c * sg rise < snd y * sg rise) -> ~ crossing rise c (l1 ++ [y]) (length l1))
      by (intros N H; apply N; now apply crossing_last).
    assert (LL : nth (length (l1 ++ [y]) - 1) (l1 ++ [y]) (0, 0) = y).
    { rewrite app_length. cbn [length]. replace (length l1 + 1 - 1)%nat with (length l1) by lia. apply nth_last'. }
    destruct st.
    + destruct I as (_ & I2 & I3). specialize (I2 eq_refl).
      assert (I3' := carry last rise c l1 y x (NC ltac:(intros [X _]; exact (I2 X))) I3).
      destruct (qltb_spec (snd y * sg rise) (c * sg rise)) as [A|A].
      * cbn. split; [|split; [discriminate|exact I3']]. intros _. split; [apply armed_snoc; now left|].
        split; [now destruct l1|now rewrite LL].
      * cbn. split; [discriminate|]. split; [|exact I3']. intros _ H. apply armed_snoc in H. destruct H as [H|[H _]]; [lra|contradiction].
    + destruct I as (I1 & _ & I3). destruct (I1 eq_refl) as (Ar & Ne & Lo).
      destruct (qltb_spec (c * sg rise) (snd y * sg rise)) as [A|A].
      * assert (Cr : crossing rise c (l1 ++ [y]) (length l1)) by (apply crossing_last; now split).
        assert (Ln : (1 <= length l1)%nat) by (destruct l1; [congruence|cbn; lia]).
        assert (Fd : found rise c (l1 ++ [y]) (length l1)
                  (fst lower + (c * sg rise * sg rise - snd lower) / (snd y - snd lower) * (fst y - fst lower))).
        { split; [exact Cr|]. rewrite nth_last', nth_snoc by lia. rewrite <- Lo. unfold xt.
          assert (E : c * sg rise * sg rise == c) by (unfold sg; destruct rise; ring). rewrite E. reflexivity. }
        destruct last.
        -- cbn. split; [discriminate|]. split.
           ++ intros _ H. apply armed_snoc in H. destruct H as [H|[_ H]]; lra.
           ++ right. split; [reflexivity|]. exists (length l1). split; [exact Fd|].
              intros k' (Hk & _). rewrite app_length in Hk. cbn in Hk. lia.
        -- cbn. split; [reflexivity|]. exists (length l1). split; [exact Fd|].
           intros k' Hk. destruct (le_lt_dec (length l1) k') as [|Lt]; [assumption|exfalso].
           apply crossing_snoc1 in Hk; [|exact Lt]. destruct I3 as [[H _]|(H & _)]; [exact (H k' Hk)|discriminate].
      * assert (I3' := carry last rise c l1 y x (NC ltac:(intros [_ X]; lra)) I3).
        cbn. split; [|split; [discriminate|exact I3']]. intros _. split; [apply armed_snoc; right; split; [exact Ar|lra]|].
        split; [now destruct l1|now rewrite LL].
    + destruct I as (I1 & k & I2 & I3). cbn. split; [exact I1|]. exists k.
      assert (Hk : (k < length l1)%nat) by (apply I2). split; [now apply found_snoc|].
      intros k' Hk'. destruct (le_lt_dec (length l1) k') as [|Lt]; [lia|]. apply I3. now apply (crossing_snoc1 rise c l1 y k' Hk').
Qed.

Lemma points_sorted : forall t after before, recorded t ->
  forall i j, (i <= j)%nat -> (j < length (points t after before))%nat -> T (points t after before) i <= T (points t after before) j.
Proof.
  intros t after before Hr i j Hij Hj. destruct (window_points t after before Hr) as (b & e & _ & Vv & Hb & He & _).
  rewrite <- Vv in *. unfold visited, T in *. cbn [fst snd] in *. rewrite firstn_length, skipn_length in Hj.
  assert (G : forall n (l : list (Q * Q)) k, (k < n)%nat -> nth k (firstn n l) (0, 0) = nth k l (0, 0)).
  { induction n as [|n IH]; intros [|a l] [|k] Hk; cbn; try reflexivity; try lia. apply IH. lia. }
  rewrite !G by lia. rewrite !nth_skipn. apply (proj1 Hr); lia.
Qed.

Lemma xt_on_segment : forall rise c l k, crossing rise c l k ->
  T l (k - 1) <= T l k -> on_segment l k c (xt c (nth (k - 1) l (0, 0)) (nth k l (0, 0))).
Proof.
  intros rise c l k Hc Ht. unfold crossing in Hc. destruct Hc as (Hk & Hb & j & Hj & Hu & Hn).
  specialize (Hn (k - 1)%nat ltac:(lia)).
  unfold on_segment, xt. fold (T l (k - 1)) (T l k) (V l (k - 1)) (V l k).
  set (a := V l (k - 1)) in *. set (b := V l k) in *. set (ta := T l (k - 1)) in *. set (tb := T l k) in *.
  assert (Hne : ~ b - a == 0) by (destruct rise; lra).
  set (r := (c - a) / (b - a)).
  assert (Hr0 : 0 <= r /\ r <= 1).
  { unfold r. destruct rise.
    - split; [apply Qle_shift_div_l; lra|apply Qle_shift_div_r; lra].
    - assert (E : (c - a) / (b - a) == (a - c) / (a - b)) by (field; lra). rewrite E.
      split; [apply Qle_shift_div_l; lra|apply Qle_shift_div_r; lra]. }
  assert (M0 : 0 <= r * (tb - ta)) by (apply Qmult_le_0_compat; lra).
  assert (M1 : 0 <= (1 - r) * (tb - ta)) by (apply Qmult_le_0_compat; lra).
  split; [lra|]. split; [lra|]. unfold r. field. exact Hne.
Qed.

(* the reported time is that of the first (last) crossing; if there is none, a reserved number *)
Theorem C41_cross : forall last rise c t after before, recorded t ->
  exists x, measure_cross last rise c t after before = Val x /\
    let l := points t after before in
    ((exists k, crossing rise c l k /\ on_segment l k c x /\
        forall k', crossing rise c l k' -> if last then (k' <= k)%nat else (k <= k')%nat) \/
     ((forall k, ~ crossing rise c l k) /\ x = if last then - BIGBIG else BIGBIG)).
Proof.
  intros last rise c t after before Hr. destruct (window_points t after before Hr) as (b & e & E & Vv & _).
  unfold measure_cross. rewrite E, Vv. eexists. split; [reflexivity|]. cbv zeta.
  assert (I := cross_inv last rise c (points t after before)). fold (sg rise).
  destruct (fold_left (cross_step last (sg rise) (c * sg rise)) (points t after before) _) as [[st x] lower].
  cbn [fst snd]. unfold cinv in I.
  assert (OS : forall k, found rise c (points t after before) k x -> on_segment (points t after before) k c x).
  { intros k [Hc Hx]. assert (O := xt_on_segment rise c _ k Hc).
    unfold on_segment in *. destruct O as (O1 & O2 & O3).
    - apply points_sorted; [exact Hr|lia|apply Hc].
    - rewrite Hx. auto. }
  destruct st.
  - destruct I as (_ & _ & [[H1 H2]|(-> & k & H1 & H2)]); [now right|left].
    exists k. split; [apply H1|]. split; [now apply OS|exact H2].
  - destruct I as (_ & _ & [[H1 H2]|(-> & k & H1 & H2)]); [now right|left].
    exists k. split; [apply H1|]. split; [now apply OS|exact H2].
  - destruct I as (-> & k & H1 & H2). left. exists k. split; [apply H1|]. split; [now apply OS|exact H2].
Qed.

(* ---------- C42 ---------- *)

(* the trapezoidal sum over consecutive points *)
Fixpoint trap (f : Q * Q -> Q * Q -> Q) (l : list (Q * Q)) : Q :=
  match l with
  | p :: ((q :: _) as r) => f p q + trap f r
  | _ => 0
  end.

Lemma areas_trap : forall f l p a, fst (areas f p l a) == a + trap f (p :: l) /\ snd (areas f p l a) = last (p :: l) (0, 0).
Proof.
  intros f l; induction l as [|q l IH]; intros p a; cbn [areas].
  - cbn. split; [ring|reflexivity].
  - destruct (IH q (a + f p q)) as [A B]. split; [rewrite A; cbn [trap]; ring|]. rewrite B. reflexivity.
Qed.

Lemma areas_window : forall f t after before, recorded t -> points t after before <> [] ->
  exists a, areas_at f t after before =
    Val (a, fst (hd (0, 0) (points t after before)), fst (last (points t after before) (0, 0))) /\
    a == trap f (points t after before).
Proof.
  intros f t after before Hr Hn. destruct (window_points t after before Hr) as (b & e & E & Vv & _).
  unfold areas_at. rewrite E, Vv. cbn [fst].
  assert (Hh : nth_error t b = Some (hd (0, 0) (points t after before))).
  { rewrite <- Vv in Hn |- *. unfold visited in *. cbn [fst snd] in *.
    destruct (skipn b t) as [|p r] eqn:Es; [now rewrite firstn_nil in Hn|].
    destruct (e - b)%nat as [|n]; [now cbn in Hn|]. cbn.
    assert (G : forall k (l : list (Q * Q)) q s, skipn k l = q :: s -> nth_error l k = Some q).
    { induction k as [|k IHk]; intros [|x l] q s Hs; cbn in *; try discriminate; [now inversion Hs|]. now apply (IHk _ _ s). }
    now apply (G b t p r). }
  rewrite Hh. destruct (points t after before) as [|p r]; [congruence|]. cbn [hd tl].
  destruct (areas_trap f r p 0) as [A B]. destruct (areas f p r 0) as [a lw]. cbn [fst snd] in *.
  exists a. subst lw. split; [reflexivity|]. rewrite A. ring.
Qed.

Lemma trap_snoc : forall f l p q, trap f ((l ++ [p]) ++ [q]) == trap f (l ++ [p]) + f p q.
Proof.
  intros f l; induction l as [|a l IH]; intros p q; [cbn; ring|].
  destruct l as [|b l]; [cbn; ring|].
  change (trap f (((a :: b :: l) ++ [p]) ++ [q])) with (f a b + trap f (((b :: l) ++ [p]) ++ [q])).
  change (trap f ((a :: b :: l) ++ [p])) with (f a b + trap f ((b :: l) ++ [p])).
  rewrite IH. ring.
Qed.
(* splitting at a point that both parts contain *)
Lemma trap_split : forall f l1 p l2, trap f (l1 ++ p :: l2) == trap f (l1 ++ [p]) + trap f (p :: l2).
Proof.
  intros f l1; induction l1 as [|a l1 IH]; intros p l2; [cbn [app]; cbn [trap]; destruct l2; ring|].
  destruct l1 as [|b l1].
  - cbn [app trap]. ring.
  - change (trap f ((a :: b :: l1) ++ p :: l2)) with (f a b + trap f ((b :: l1) ++ p :: l2)).
    change (trap f ((a :: b :: l1) ++ [p])) with (f a b + trap f ((b :: l1) ++ [p])).
    rewrite IH. ring.
Qed.

(* the integral is the sum of the areas of the trapezoids between consecutive points *)
Theorem C42_integral : forall t after before, recorded t -> points t after before <> [] ->
  exists a, measure_integral t after before = Val a /\ a == trap (fun p q => (snd p + snd q) / 2 * (fst q - fst p)) (points t after before).
Proof.
  intros t after before Hr Hn. destruct (areas_window seg t after before Hr Hn) as (a & E & A).
  unfold measure_integral. rewrite E. exists a. split; [reflexivity|]. rewrite A.
  generalize (points t after before). intros l. induction l as [|p [|q l] IH]; try reflexivity.
  change (seg p q + trap seg (q :: l) == (snd p + snd q) / 2 * (fst q - fst p) + trap (fun p q => (snd p + snd q) / 2 * (fst q - fst p)) (q :: l)).
  rewrite IH. unfold seg. field.
Qed.

(* for a waveform whose points lie on a straight line it is the exact integral *)
Theorem C42_line : forall t after before m q, recorded t -> points t after before <> [] ->
  (forall p, In p t -> snd p == m * fst p + q) ->
  exists a, measure_integral t after before = Val a /\
    let ta := fst (hd (0, 0) (points t after before)) in
    let tb := fst (last (points t after before) (0, 0)) in
    a == m * (tb * tb - ta * ta) / 2 + q * (tb - ta).
Proof.
  intros t after before m q Hr Hn Hl. destruct (areas_window seg t after before Hr Hn) as (a & E & A).
  unfold measure_integral. rewrite E. exists a. split; [reflexivity|]. cbv zeta. rewrite A.
  assert (Hl' : forall p, In p (points t after before) -> snd p == m * fst p + q).
  { intros p Hp. apply filter_In in Hp. now apply Hl. }
  revert Hn Hl'. generalize (points t after before). intros l. induction l as [|p [|p' l] IH]; intros Hn Hl'; [congruence|cbn; field|].
  change (trap seg (p :: p' :: l)) with (seg p p' + trap seg (p' :: l)).
  rewrite IH; [|discriminate|intros x Hx; apply Hl'; now right].
  change (last (p :: p' :: l) (0, 0)) with (last (p' :: l) (0, 0)). cbn [hd].
  unfold seg. rewrite (Hl' p), (Hl' p') by (cbn; tauto). field.
Qed.

Lemma trap_same_time : forall l x, (forall p, In p l -> fst p == x) -> trap seg l == 0.
Proof.
  intros l x; induction l as [|p [|q l] IH]; intros H; try reflexivity.
  change (trap seg (p :: q :: l)) with (seg p q + trap seg (q :: l)). rewrite IH by (intros r Hr; apply H; now right).
  unfold seg. rewrite (H p), (H q) by (cbn; tauto). ring.
Qed.

(* windows sharing a recorded time add up *)
Theorem C42_additive : forall t a m b, recorded t -> a <= m -> m <= b -> (exists p, In p t /\ fst p == m) ->
  exists x y z, measure_integral t a m = Val x /\ measure_integral t m b = Val y /\ measure_integral t a b = Val z /\ z == x + y.
Proof.
  intros t a m b Hr Ham Hmb (p & Hp & Hpm).
  assert (Hin : forall u v, u <= m -> m <= v -> In p (points t u v)).
  { intros u v Hu Hv. apply filter_In. split; [exact Hp|].
    destruct (qleb_spec u (fst p)); [|lra]. destruct (qleb_spec (fst p) v); [reflexivity|lra]. }
  assert (Nn : forall u v, u <= m -> m <= v -> points t u v <> []).
  { intros u v Hu Hv X. specialize (Hin u v Hu Hv). rewrite X in Hin. contradiction. }
  destruct (areas_window seg t a m Hr (Nn a m Ham ltac:(lra))) as (x & Ex & Hx).
  destruct (areas_window seg t m b Hr (Nn m b ltac:(lra) Hmb)) as (y & Ey & Hy).
  destruct (areas_window seg t a b Hr (Nn a b Ham Hmb)) as (z & Ez & Hz).
  unfold measure_integral. rewrite Ex, Ey, Ez. exists x, y, z. repeat (split; [reflexivity|]).
  rewrite Hx, Hy, Hz. clear x y z Ex Ey Ez Hx Hy Hz.
  (* the list as: before m, at m, after m *)
  assert (D : forall t : list (Q * Q), (forall i j, (i <= j)%nat -> (j < length t)%nat -> fst (nth i t (0, 0)) <= fst (nth j t (0, 0))) ->
    exists t1 tm t2, t = t1 ++ tm ++ t2 /\ (forall p, In p t1 -> fst p < m) /\ (forall p, In p tm -> fst p == m) /\ (forall p, In p t2 -> m < fst p)).
  { clear. induction t as [|q t IH]; intros Hs; [exists [], [], []; cbn; tauto|].
    destruct IH as (t1 & tm & t2 & E & A & B & C).
    { intros i j Hij Hj. apply (Hs (S i) (S j)); cbn; lia. }
    assert (Hq : forall p, In p t -> fst q <= fst p).
    { intros p' Hp'. destruct (In_nth t p' (0, 0) Hp') as (i & Hi & En). rewrite <- En. apply (Hs 0%nat (S i)); cbn; lia. }
    destruct (Qlt_le_dec (fst q) m) as [X|X].
    - exists (q :: t1), tm, t2. subst t. split; [reflexivity|]. split; [|split; assumption]. intros p' [<- |Hp']; auto.
    - destruct t1 as [|r t1].
      + destruct (Qlt_le_dec m (fst q)) as [Y|Y].
        * exists [], [], (q :: t). split; [reflexivity|]. split; [intros ? []|]. split; [intros ? []|].
          intros p' [<- |Hp']; [exact Y|]. specialize (Hq p' Hp'). lra.
        * exists [], (q :: tm), t2. subst t. split; [reflexivity|]. split; [intros ? []|]. split; [|exact C].
          intros p' [<- |Hp']; [lra|auto].
      + exfalso. specialize (Hq r). rewrite E in Hq. specialize (Hq ltac:(now left)). specialize (A r ltac:(now left)). lra. }
  destruct (D t (proj1 Hr)) as (t1 & tm & t2 & E & A & B & C).
  set (f := fun u v (p : Q * Q) => qleb u (fst p) && qleb (fst p) v).
  assert (E1 : points t a m = filter (f a m) t1 ++ tm).
  { unfold points. rewrite E, !filter_app. fold (f a m). rewrite (filter_none _ (f a m) t2), (filter_all _ (f a m) tm).
    - now rewrite app_nil_r.
    - intros p' Hp'. specialize (B p' Hp'). unfold f. destruct (qleb_spec a (fst p')); [|lra]. destruct (qleb_spec (fst p') m); [reflexivity|lra].
    - intros p' Hp'. specialize (C p' Hp'). unfold f. destruct (qleb_spec (fst p') m); [lra|]. now rewrite andb_false_r. }
  assert (E2 : points t m b = tm ++ filter (f m b) t2).
  { unfold points. rewrite E, !filter_app. fold (f m b). rewrite (filter_none _ (f m b) t1), (filter_all _ (f m b) tm).
    - reflexivity.
    - intros p' Hp'. specialize (B p' Hp'). unfold f. destruct (qleb_spec m (fst p')); [|lra]. destruct (qleb_spec (fst p') b); [reflexivity|lra].
    - intros p' Hp'. specialize (A p' Hp'). unfold f. destruct (qleb_spec m (fst p')); [lra|reflexivity]. }
  assert (E3 : points t a b = filter (f a m) t1 ++ tm ++ filter (f m b) t2).
  { unfold points. rewrite E, !filter_app. fold (f a b). rewrite (filter_all _ (f a b) tm).
    - f_equal; [|f_equal]; apply filter_ext_in; intros p' Hp'; unfold f.
      + specialize (A p' Hp'). f_equal. destruct (qleb_spec (fst p') b), (qleb_spec (fst p') m); try reflexivity; lra.
      + specialize (C p' Hp'). destruct (qleb_spec m (fst p')); [|lra]. destruct (qleb_spec a (fst p')); [reflexivity|lra].
    - intros p' Hp'. specialize (B p' Hp'). unfold f. destruct (qleb_spec a (fst p')); [|lra]. destruct (qleb_spec (fst p') b); [reflexivity|lra]. }
  rewrite E1, E2, E3.
  assert (Nm : tm <> []).
  { rewrite E in Hp. apply in_app_or in Hp. destruct Hp as [Hp|Hp]; [specialize (A p Hp); lra|].
    apply in_app_or in Hp. destruct Hp as [Hp|Hp]; [|specialize (C p Hp); lra]. intros ->. contradiction. }
  destruct tm as [|q tm]; [congruence|]. cbn [app].
  rewrite (trap_split seg (filter (f a m) t1) q (tm ++ filter (f m b) t2)).
  rewrite (trap_split seg (filter (f a m) t1) q tm).
  rewrite (trap_same_time (q :: tm) m B). ring.
Qed.

(* same times, other values *)
Definition with_values (g : Q * Q -> Q) (t : list (Q * Q)) : list (Q * Q) := map (fun p => (fst p, g p)) t.

Lemma points_with_values : forall g t a b, points (with_values g t) a b = with_values g (points t a b).
Proof.
  intros g t a b; induction t as [|p t IH]; [reflexivity|]. unfold points, with_values in *. cbn. destruct (qleb a (fst p) && qleb (fst p) b); cbn; [f_equal|]; exact IH.
Qed.

(* linear in the waveform *)
Theorem C42_linear : forall t g h c d after before,
  recorded (with_values g t) -> recorded (with_values h t) -> recorded (with_values (fun p => c * g p + d * h p) t) ->
  points t after before <> [] ->
  exists x y z, measure_integral (with_values g t) after before = Val x /\
    measure_integral (with_values h t) after before = Val y /\
    measure_integral (with_values (fun p => c * g p + d * h p) t) after before = Val z /\ z == c * x + d * y.
Proof.
  intros t g h c d after before R1 R2 R3 Hn.
  assert (N : forall k, points (with_values k t) after before <> []).
  { intros k X. rewrite points_with_values in X. destruct (points t after before); [congruence|discriminate]. }
  destruct (areas_window seg _ after before R1 (N _)) as (x & Ex & Hx).
  destruct (areas_window seg _ after before R2 (N _)) as (y & Ey & Hy).
  destruct (areas_window seg _ after before R3 (N _)) as (z & Ez & Hz).
  unfold measure_integral. rewrite Ex, Ey, Ez. exists x, y, z. repeat (split; [reflexivity|]).
  rewrite Hx, Hy, Hz, !points_with_values. generalize (points t after before). intros l.
  induction l as [|p [|q l] IH]; [cbn; ring|cbn; ring|].
  assert (G : forall k, trap seg (with_values k (p :: q :: l)) == seg (fst p, k p) (fst q, k q) + trap seg (with_values k (q :: l))) by (intros; reflexivity).
  rewrite !G, IH. unfold seg. cbn [fst snd]. ring.
Qed.

Lemma trap_dur : forall l, l <> [] -> trap (fun p q => fst q - fst p) l == fst (last l (0, 0)) - fst (hd (0, 0) l).
Proof.
  intros l; induction l as [|p [|q l] IH]; intros H; [congruence|cbn; ring|].
  change (fst q - fst p + trap (fun p q => fst q - fst p) (q :: l) == fst (last (q :: l) (0, 0)) - fst p).
  rewrite IH by discriminate. cbn [hd]. ring.
Qed.
Lemma trap_ge : forall f g l, (forall i, (S i < length l)%nat -> f (nth i l (0, 0)) (nth (S i) l (0, 0)) <= g (nth i l (0, 0)) (nth (S i) l (0, 0))) ->
  trap f l <= trap g l.
Proof.
  intros f g l; induction l as [|p [|q l] IH]; intros H; try (cbn; lra).
  change (f p q + trap f (q :: l) <= g p q + trap g (q :: l)).
  assert (A := H 0%nat ltac:(cbn; lia)). cbn in A.
  assert (B : trap f (q :: l) <= trap g (q :: l)) by (apply IH; intros i Hi; apply (H (S i)); cbn in *; lia). lra.
Qed.
Lemma trap_lin : forall f g c d l, trap (fun p q => c * f p q + d * g p q) l == c * trap f l + d * trap g l.
Proof.
  intros f g c d l; induction l as [|p [|q l] IH]; [cbn; ring|cbn; ring|].
  change (c * f p q + d * g p q + trap (fun p q => c * f p q + d * g p q) (q :: l) == c * (f p q + trap f (q :: l)) + d * (g p q + trap g (q :: l))).
  rewrite IH. ring.
Qed.

Definition span (t : list (Q * Q)) (after before : Q) : Q :=
  fst (last (points t after before) (0, 0)) - fst (hd (0, 0) (points t after before)).

(* the average is the integral over the duration, and lies between any bounds of the values *)
Theorem C42_average : forall t after before lo hi, recorded t -> 0 < span t after before ->
  (forall p, In p (points t after before) -> lo <= snd p /\ snd p <= hi) ->
  exists a v, measure_integral t after before = Val a /\ measure_average t after before = Val (Some v) /\
    v * span t after before == a /\ lo <= v /\ v <= hi.
Proof.
  intros t after before lo hi Hr Hs Hb.
  assert (Hn : points t after before <> []) by (intros X; unfold span in Hs; rewrite X in Hs; cbn in Hs; lra).
  destruct (areas_window seg t after before Hr Hn) as (a & E & A).
  unfold measure_integral, measure_average. rewrite E. fold (span t after before). unfold quot.
  destruct (qeqb_spec (span t after before) 0) as [X|X]; [lra|].
  exists a, (a / span t after before). split; [reflexivity|]. split; [reflexivity|]. split; [field; lra|].
  assert (Sd := trap_dur (points t after before) Hn). fold (span t after before) in Sd.
  assert (In' : forall i, (i < length (points t after before))%nat -> In (nth i (points t after before) (0, 0)) (points t after before)) by (intros; now apply nth_In).
  assert (Le : forall i, (S i < length (points t after before))%nat -> fst (nth i (points t after before) (0, 0)) <= fst (nth (S i) (points t after before) (0, 0))).
  { intros i Hi. apply (points_sorted t after before Hr i (S i)); lia. }
  assert (G1 : lo * span t after before <= a).
  { rewrite A, <- Sd. assert (Z := trap_lin (fun p q => fst q - fst p) (fun _ _ => 0) lo 0 (points t after before)).
    assert (Z2 : lo * trap (fun p q => fst q - fst p) (points t after before) == trap (fun p q => lo * (fst q - fst p) + 0 * 0) (points t after before)) by (rewrite Z; ring).
    rewrite Z2. apply trap_ge. intros i Hi. unfold seg.
    destruct (Hb _ (In' i ltac:(lia))) as [B1 _]. destruct (Hb _ (In' (S i) Hi)) as [B2 _]. specialize (Le i Hi).
    assert (0 <= ((snd (nth i (points t after before) (0, 0)) - lo) + (snd (nth (S i) (points t after before) (0, 0)) - lo)) * (fst (nth (S i) (points t after before) (0, 0)) - fst (nth i (points t after before) (0, 0)))) by (apply Qmult_le_0_compat; lra).
    lra. }
  assert (G2 : a <= hi * span t after before).
  { rewrite A, <- Sd. assert (Z := trap_lin (fun p q => fst q - fst p) (fun _ _ => 0) hi 0 (points t after before)).
    assert (Z2 : hi * trap (fun p q => fst q - fst p) (points t after before) == trap (fun p q => hi * (fst q - fst p) + 0 * 0) (points t after before)) by (rewrite Z; ring).
    rewrite Z2. apply trap_ge. intros i Hi. unfold seg.
    destruct (Hb _ (In' i ltac:(lia))) as [_ B1]. destruct (Hb _ (In' (S i) Hi)) as [_ B2]. specialize (Le i Hi).
    assert (0 <= ((hi - snd (nth i (points t after before) (0, 0))) + (hi - snd (nth (S i) (points t after before) (0, 0)))) * (fst (nth (S i) (points t after before) (0, 0)) - fst (nth i (points t after before) (0, 0)))) by (apply Qmult_le_0_compat; lra).
    lra. }
  split; [apply Qle_shift_div_l; lra|apply Qle_shift_div_r; lra].
Qed.

(* the square of the rms value is the average of the squares, and at least the square of the
   average *)
Theorem C42_rms : forall t after before, recorded t -> 0 < span t after before ->
  exists v r, measure_average t after before = Val (Some v) /\ measure_rms_squared t after before = Val (Some r) /\
    r * span t after before == trap (fun p q => (snd p * snd p + snd q * snd q) / 2 * (fst q - fst p)) (points t after before) /\
    v * v <= r.
Proof.
  intros t after before Hr Hs.
  assert (Hn : points t after before <> []) by (intros X; unfold span in Hs; rewrite X in Hs; cbn in Hs; lra).
  destruct (areas_window seg t after before Hr Hn) as (a & E & A).
  destruct (areas_window seg_sq t after before Hr Hn) as (b & E2 & B).
  unfold measure_average, measure_rms_squared. rewrite E, E2. fold (span t after before). unfold quot.
  destruct (qeqb_spec (span t after before) 0) as [X|X]; [lra|].
  exists (a / span t after before), (b / span t after before). split; [reflexivity|]. split; [reflexivity|].
  assert (Sd := trap_dur (points t after before) Hn). fold (span t after before) in Sd.
  split.
  - assert (Eb : b / span t after before * span t after before == b) by (field; lra). rewrite Eb, B.
    generalize (points t after before). intros l. induction l as [|p [|q l] IH]; try reflexivity.
    change (seg_sq p q + trap seg_sq (q :: l) == (snd p * snd p + snd q * snd q) / 2 * (fst q - fst p) + trap (fun p q => (snd p * snd p + snd q * snd q) / 2 * (fst q - fst p)) (q :: l)).
    rewrite IH. unfold seg_sq. field.
  - set (v := a / span t after before) in *.
    assert (Ea : a == v * span t after before) by (unfold v; field; lra).
    assert (G : 0 <= b - 2 * v * a + v * v * span t after before).
    { rewrite A, B, <- Sd.
      assert (Z1 := trap_lin seg_sq seg 1 (- (2 * v)) (points t after before)).
      assert (Z2 := trap_lin (fun p q => 1 * seg_sq p q + - (2 * v) * seg p q) (fun p q => fst q - fst p) 1 (v * v) (points t after before)).
      rewrite Z1 in Z2.
      assert (Z3 : trap (fun p q => 0 * 0) (points t after before) <= trap (fun p q => 1 * (1 * seg_sq p q + - (2 * v) * seg p q) + v * v * (fst q - fst p)) (points t after before)).
      { apply trap_ge. intros i Hi.
        assert (Le := points_sorted t after before Hr i (S i) ltac:(lia) Hi). unfold T in Le. unfold seg, seg_sq.
        set (p := nth i _ _) in *. set (q := nth (S i) _ _) in *.
        assert (Sq : forall x : Q, 0 <= x * x).
        { intros x. destruct (Qlt_le_dec x 0); [|apply Qmult_le_0_compat; assumption].
          assert (Ex : x * x == (- x) * (- x)) by ring. rewrite Ex. apply Qmult_le_0_compat; lra. }
        assert (0 <= ((snd p - v) * (snd p - v) + (snd q - v) * (snd q - v)) * (fst q - fst p)).
        { apply Qmult_le_0_compat; [|lra]. assert (S1 := Sq (snd p - v)). assert (S2 := Sq (snd q - v)). lra. }
        lra. }
      assert (Z4 : trap (fun p q => 0 * 0) (points t after before) == 0).
      { generalize (points t after before). intros l. induction l as [|p [|q l] IH]; try reflexivity.
        change (0 * 0 + trap (fun p q : Q * Q => 0 * 0) (q :: l) == 0). rewrite IH. ring. }
      lra. }
    apply Qle_shift_div_l; [lra|]. rewrite Ea in G. lra.
Qed.

(* with one point in the window average is not a number; with none after the last point the code
   reads outside the waveform *)
Theorem C42_short_window_refuted : exists t after before, recorded t /\ points t after before <> [] /\
  measure_average t after before = Val None /\
  exists after2, measure_average t after2 (after2 + 1) = UB.
Proof.
  exists [(0, 1); (1, 2)], 1, 2. split; [|split; [discriminate|split; [reflexivity|exists 5; reflexivity]]].
  split.
  - intros [|[|i]] [|[|j]] Hi Hj; cbn in *; try lia; try (cbn; lra).
  - intros p [<- |[<- |[]]]; cbn [fst snd]; repeat split; reflexivity.
Qed.

(* ---------- C44 ---------- *)

Lemma pow2_loop_spec : forall fuel x y k, (0 < y)%Z -> (0 <= x < 2 ^ k)%Z -> (0 <= k)%Z -> (k <= Z.of_nat fuel)%Z -> (y * 2 ^ k < 2 ^ 31)%Z ->
  exists j, (0 <= j <= k)%Z /\ pow2_loop fuel x y = Some (y * 2 ^ j)%Z /\ (x < 2 ^ j)%Z /\ ((0 < j)%Z -> 2 ^ (j - 1) <= x)%Z.
Proof.
  induction fuel as [|f IH]; intros x y k Hy Hx Hk Hf Ho.
  - assert (k = 0)%Z by lia. subst k. cbn in Hx. assert (x = 0)%Z by lia. subst x. cbn [pow2_loop]. cbn [Z.ltb Z.compare].
    exists 0%Z. split; [lia|]. split; [f_equal; cbn; lia|]. split; [reflexivity|lia].
  - cbn [pow2_loop]. destruct (Z.ltb_spec 0 x) as [P|P].
    + assert (K1 : (1 <= k)%Z). { destruct (Z.eq_dec k 0) as [-> |]; [cbn in Hx; lia|lia]. }
      assert (E : (2 ^ k = 2 * 2 ^ (k - 1))%Z) by (rewrite <- Z.pow_succ_r by lia; f_equal; lia).
      assert (Pk : (0 < 2 ^ (k - 1))%Z) by (apply Z.pow_pos_nonneg; lia).
      destruct (Z.ltb_spec (2 * y) (2 ^ 31)) as [L2|L2]; [|nia].
      assert (Dx := Z.div2_odd x). assert (Hd : (0 <= (if Z.odd x then 1 else 0) <= 1)%Z) by (destruct (Z.odd x); lia).
      unfold Z.b2z in Dx.
      destruct (IH (Z.div2 x) (2 * y)%Z (k - 1)%Z) as (j & A & B & C & D); [lia|lia|lia|lia|nia|].
      exists (j + 1)%Z. split; [lia|]. split.
      * rewrite B. f_equal. rewrite Z.pow_add_r by lia. ring.
      * rewrite Z.pow_add_r by lia. split; [lia|]. intros _. replace (j + 1 - 1)%Z with j by lia.
        destruct (Z.eq_dec j 0) as [-> |N]; [cbn; lia|]. specialize (D ltac:(lia)).
        replace (2 ^ j)%Z with (2 * 2 ^ (j - 1))%Z by (rewrite <- Z.pow_succ_r by lia; f_equal; lia). lia.
    + exists 0%Z. split; [lia|]. split; [f_equal; cbn; lia|]. assert (x = 0)%Z by lia. subst x. split; [reflexivity|lia].
Qed.

(* the smallest power of two above the count (above, not at least) *)
Theorem C44_power : forall x, (0 <= x < 2 ^ 30)%Z ->
  exists k, (0 <= k)%Z /\ to_pow_of_2 x = Some (2 ^ k)%Z /\ (x < 2 ^ k)%Z /\ forall j, (0 <= j)%Z -> (x < 2 ^ j)%Z -> (k <= j)%Z.
Proof.
  intros x Hx. destruct (pow2_loop_spec 64 x 1 30) as (j & A & B & C & D); try lia.
  exists j. split; [lia|]. split; [unfold to_pow_of_2; rewrite B; f_equal; lia|]. split; [exact C|].
  intros i Hi Hl. destruct (Z_le_gt_dec j i) as [|G]; [assumption|exfalso]. specialize (D ltac:(lia)).
  assert (2 ^ i <= 2 ^ (j - 1))%Z by (apply Z.pow_le_mono_r; lia). lia.
Qed.

(* a count that is a power of two already is doubled; from 2^30 on the result does not fit *)
Theorem C44_exact_power_refuted : to_pow_of_2 64 = Some 128%Z /\ to_pow_of_2 (2 ^ 30) = None.
Proof. split; vm_compute; reflexivity. Qed.

(* ---------- C56: slew rate ---------- *)

(* a passage from the start level to the stop level: point a-1 has not passed the start level,
   the points from a on have, point b is the first of them that has passed the stop level *)
Definition passage (rise : bool) (s e : Q) (l : list (Q * Q)) (a b : nat) : Prop :=
  (1 <= a <= b)%nat /\ (b < length l)%nat /\ L rise l (a - 1) <= s * sg rise /\
  (forall i, (a <= i < b)%nat -> s * sg rise < L rise l i /\ L rise l i <= e * sg rise) /\ e * sg rise < L rise l b.

Definition inside (rise : bool) (s e : Q) (l : list (Q * Q)) (a : nat) : Prop :=
  (1 <= a < length l)%nat /\ L rise l (a - 1) <= s * sg rise /\
  forall i, (a <= i < length l)%nat -> s * sg rise < L rise l i /\ L rise l i <= e * sg rise.

Lemma passage_snoc : forall rise s e l x a b, (b < length l)%nat -> (passage rise s e (l ++ [x]) a b <-> passage rise s e l a b).
Proof.
  intros rise s e l x a b Hb. unfold passage. rewrite app_length, (L_snoc rise l x b) by lia. cbn [length].
  split; intros (A & B & C & D & E); (split; [lia|]); (split; [lia|]).
  - rewrite L_snoc in C by lia. split; [exact C|]. split; [|exact E]. intros i Hi. rewrite <- (L_snoc rise l x i) by lia. now apply D.
  - rewrite L_snoc by lia. split; [exact C|]. split; [|exact E]. intros i Hi. rewrite L_snoc by lia. now apply D.
Qed.
Lemma passage_last : forall rise s e l x a, s * sg rise < e * sg rise ->
  (passage rise s e (l ++ [x]) a (length l) <->
   (e * sg rise < snd x * sg rise /\ ((a = length l /\ (1 <= a)%nat /\ L rise l (a - 1) <= s * sg rise) \/ inside rise s e l a))).
Proof.
  intros rise s e l x a Hse. unfold passage, inside. rewrite app_length, L_last. cbn [length]. split.
  - intros (A & B & C & D & E). split; [exact E|]. rewrite L_snoc in C by lia.
    destruct (Nat.eq_dec a (length l)) as [-> |N]; [left; split; [reflexivity|]; split; [lia|exact C]|right].
    split; [lia|]. split; [exact C|]. intros i Hi. rewrite <- (L_snoc rise l x i) by lia. apply D. lia.
  - intros [E [(-> & A & C)|(A & C & D)]].
    + split; [lia|]. split; [lia|]. rewrite L_snoc by lia. split; [exact C|]. split; [|exact E]. intros i Hi. lia.
    + split; [lia|]. split; [lia|]. rewrite L_snoc by lia. split; [exact C|]. split; [|exact E].
      intros i Hi. rewrite L_snoc by lia. apply D. lia.
Qed.
Lemma inside_snoc : forall rise s e l x a, s * sg rise < e * sg rise ->
  (inside rise s e (l ++ [x]) a <->
   (s * sg rise < snd x * sg rise /\ snd x * sg rise <= e * sg rise /\
    ((a = length l /\ (1 <= a)%nat /\ L rise l (a - 1) <= s * sg rise) \/ inside rise s e l a))).
Proof.
  intros rise s e l x a Hse. unfold inside. rewrite app_length. cbn [length]. split.
  - intros (A & C & D). assert (X := D (length l) ltac:(lia)). rewrite L_last in X. split; [apply X|]. split; [apply X|].
    rewrite L_snoc in C by lia.
    destruct (Nat.eq_dec a (length l)) as [-> |N]; [left; split; [reflexivity|]; split; [lia|exact C]|right].
    split; [lia|]. split; [exact C|]. intros i Hi. rewrite <- (L_snoc rise l x i) by lia. apply D. lia.
  - intros (X & Y & [(-> & A & C)|(A & C & D)]).
    + split; [lia|]. rewrite L_snoc by lia. split; [exact C|]. intros i Hi. replace i with (length l) by lia. rewrite L_last. now split.
    + split; [lia|]. rewrite L_snoc by lia. split; [exact C|]. intros i Hi.
      destruct (Nat.eq_dec i (length l)) as [-> |N]; [rewrite L_last; now split|]. rewrite L_snoc by lia. apply D. lia.
Qed.

Lemma orders : forall rise s e v, s * sg rise < e * sg rise ->
  (in_order v s e = true <-> v * sg rise <= s * sg rise) /\
  (in_order s v e = true <-> s * sg rise <= v * sg rise /\ v * sg rise <= e * sg rise) /\
  (in_order s e v = true <-> e * sg rise <= v * sg rise).
Proof.
  intros rise s e v H. rewrite !in_order_iff. unfold sg in *. destruct rise; repeat split; intros; try lra.
Qed.

(* the two times of a passage *)
Definition timed (rise : bool) (s e : Q) (l : list (Q * Q)) (a b : nat) (t1 t2 : Q) : Prop :=
  passage rise s e l a b /\ t1 == xt s (nth (a - 1) l (0, 0)) (nth a l (0, 0)) /\
  t2 == xt e (nth (b - 1) l (0, 0)) (nth b l (0, 0)).

Lemma timed_snoc : forall rise s e l x a b t1 t2, timed rise s e l a b t1 t2 -> timed rise s e (l ++ [x]) a b t1 t2.
Proof.
  intros rise s e l x a b t1 t2 (A & B & C). assert (Hb : (1 <= a <= b /\ b < length l)%nat) by (unfold passage in A; tauto).
  split; [apply passage_snoc; [lia|exact A]|]. rewrite !nth_snoc by lia. split; assumption.
Qed.

Definition low_at (rise : bool) (s : Q) (l : list (Q * Q)) : Prop := l <> [] /\ L rise l (length l - 1) <= s * sg rise.

Definition sinv (last rise : bool) (s e : Q) (l : list (Q * Q)) (w : sw) : Prop :=
  (s_stat w <> sDONE -> l <> [] -> s_low w = nth (length l - 1) l (0, 0)) /\
  ((forall a b, ~ passage rise s e l a b) /\ s_stop w = BIGBIG \/
   exists a b, timed rise s e l a b (s_start w) (s_stop w) /\
     (last = false -> forall a' b', passage rise s e l a' b' -> (b <= b')%nat)) /\
  match s_stat w with
  | sWAITING => ~ low_at rise s l /\ (forall a, ~ inside rise s e l a) /\ (last = false -> s_stop w = BIGBIG)
  | sREADY => low_at rise s l /\ (last = false -> s_stop w = BIGBIG)
  | sIN_RANGE => (exists a, inside rise s e l a /\ s_try w == xt s (nth (a - 1) l (0, 0)) (nth a l (0, 0))) /\ (last = false -> s_stop w = BIGBIG)
  | sDONE => s_stop w <> BIGBIG
  end.

Lemma low_snoc : forall rise s l x, low_at rise s (l ++ [x]) <-> snd x * sg rise <= s * sg rise.
Proof.
  intros. unfold low_at. rewrite app_length. cbn [length]. replace (length l + 1 - 1)%nat with (length l) by lia. rewrite L_last.
  split; [tauto|]. intros H. split; [now destruct l|exact H].
Qed.

Lemma xt_bounds : forall rise c l k, L rise l (k - 1) <= c * sg rise -> c * sg rise < L rise l k ->
  T l (k - 1) < T l k -> T l (k - 1) <= xt c (nth (k - 1) l (0, 0)) (nth k l (0, 0)) /\
  xt c (nth (k - 1) l (0, 0)) (nth k l (0, 0)) < T l k.
Proof.
  intros rise c l k H1 H2 Ht. unfold xt, L in *. fold (T l (k - 1)) (T l k) (V l (k - 1)) (V l k).
  set (a := V l (k - 1)) in *. set (b := V l k) in *. set (ta := T l (k - 1)) in *. set (tb := T l k) in *.
  assert (R : 0 <= (c - a) / (b - a) /\ (c - a) / (b - a) < 1).
  { unfold sg in *. destruct rise.
    - split; [apply Qle_shift_div_l; lra|apply Qlt_shift_div_r; lra].
    - assert (E : (c - a) / (b - a) == (a - c) / (a - b)) by (field; lra). rewrite E.
      split; [apply Qle_shift_div_l; lra|apply Qlt_shift_div_r; lra]. }
  destruct R as [R0 R1]. set (r := (c - a) / (b - a)) in *. clearbody r.
  assert (M0 : 0 <= r * (tb - ta)) by (apply Qmult_le_0_compat; lra).
  assert (M1 : 0 < (1 - r) * (tb - ta)) by (apply Qmult_lt_0_compat; lra). lra.
Qed.

Definition strictly (l : list (Q * Q)) : Prop := forall i, (S i < length l)%nat -> T l i < T l (S i).

Lemma strictly_snoc : forall l x, strictly (l ++ [x]) -> strictly l.
Proof.
  intros l x H i Hi. specialize (H i ltac:(rewrite app_length; cbn; lia)). unfold T in *. now rewrite !nth_snoc in H by lia.
Qed.

Lemma slew_inv : forall last rise s e l0, s * sg rise < e * sg rise ->
  (forall p, In p l0 -> fst p < BIGBIG) ->
  strictly l0 -> sinv last rise s e l0 (fold_left (slew_step last s e) l0 (mk_sw sWAITING BIGBIG BIGBIG BIGBIG (0, 0))).
Proof.
  intros last rise s e l0 Hse Hbig. induction l0 as [|x l IH] using rev_ind; intros Hst.
  - cbn. unfold sinv. cbn [s_stat s_stop s_low]. split; [congruence|]. split.
    + left. split; [|reflexivity]. intros a b (_ & H & _). cbn in H. lia.
    + split; [intros [H _]; congruence|]. split; [|reflexivity]. intros a (H & _). cbn in H. lia.
  - rewrite fold_left_app. cbn [fold_left].
    specialize (IH ltac:(intros p Hp; apply Hbig, in_or_app; now left) (strictly_snoc l x Hst)).
    set (w := fold_left (slew_step last s e) l (mk_sw sWAITING BIGBIG BIGBIG BIGBIG (0, 0))) in *. clearbody w.
    unfold sinv in IH. destruct IH as (ILow & IRes & IStat).
    destruct (orders rise s e (snd x) Hse) as (O1 & O2 & O3).
    assert (LL : nth (length (l ++ [x]) - 1) (l ++ [x]) (0, 0) = x).
    { rewrite app_length. cbn [length]. replace (length l + 1 - 1)%nat with (length l) by lia. apply nth_last'. }
    (* what is known about the result carries over when the new point ends no passage *)
    assert (Carry : (forall a, ~ passage rise s e (l ++ [x]) a (length l)) ->
      (forall a b, ~ passage rise s e (l ++ [x]) a b) /\ s_stop w = BIGBIG \/
      exists a b, timed rise s e (l ++ [x]) a b (s_start w) (s_stop w) /\
        (last = false -> forall a' b', passage rise s e (l ++ [x]) a' b' -> (b <= b')%nat)).
    { intros N.
      assert (P : forall a b, passage rise s e (l ++ [x]) a b -> passage rise s e l a b).
      { intros a b H. assert (Hb : (b < length (l ++ [x]))%nat) by (unfold passage in H; tauto). rewrite app_length in Hb. cbn in Hb.
        destruct (Nat.eq_dec b (length l)) as [-> |M]; [exfalso; exact (N a H)|]. apply (passage_snoc rise s e l x a b); [lia|exact H]. }
      destruct IRes as [[H1 H2]|(a & b & H1 & H2)].
      - left. split; [|exact H2]. intros a b H. apply (H1 a b). now apply P.
      - right. exists a, b. split; [now apply timed_snoc|]. intros Hl a' b' H. apply (H2 Hl a' b'). now apply P. }
    (* times reported by a passage ending at the new point are below the reserved number *)
    assert (Small : forall a, passage rise s e (l ++ [x]) a (length l) ->
      xt e (nth (length l - 1) (l ++ [x]) (0, 0)) (nth (length l) (l ++ [x]) (0, 0)) < BIGBIG).
    { intros a Hp. unfold passage in Hp. destruct Hp as (A & B & C & D & E).
      assert (Ln : (1 <= length l)%nat) by lia.
      assert (Pr : L rise (l ++ [x]) (length l - 1) <= e * sg rise).
      { destruct (Nat.eq_dec a (length l)) as [-> |N]; [lra|]. apply (D (length l - 1)%nat). lia. }
      assert (Ts : T (l ++ [x]) (length l - 1) < T (l ++ [x]) (length l)).
      { assert (Z := Hst (length l - 1)%nat). replace (S (length l - 1)) with (length l) in Z by lia. apply Z. rewrite app_length. cbn. lia. }
      destruct (xt_bounds rise e (l ++ [x]) (length l) Pr E Ts) as [_ X].
      apply Qlt_trans with (T (l ++ [x]) (length l)); [exact X|]. unfold T. rewrite nth_last'. apply Hbig, in_or_app. right. now left. }
    (* a passage that ends at the new point *)
    assert (New : forall (a : nat) t1 t2,
      passage rise s e (l ++ [x]) a (length l) -> (last = false -> s_stop w = BIGBIG) ->
      t1 == xt s (nth (a - 1) (l ++ [x]) (0, 0)) (nth a (l ++ [x]) (0, 0)) ->
      t2 == xt e (nth (length l - 1) (l ++ [x]) (0, 0)) (nth (length l) (l ++ [x]) (0, 0)) ->
      exists a b, timed rise s e (l ++ [x]) a b t1 t2 /\
        (last = false -> forall a' b', passage rise s e (l ++ [x]) a' b' -> (b <= b')%nat)).
    { intros a t1 t2 Hp Hw H1 H2. exists a, (length l). split; [split; [exact Hp|split; assumption]|].
      intros Hl a' b' H'. destruct (le_lt_dec (length l) b') as [|Lt]; [assumption|exfalso].
      apply (passage_snoc rise s e l x a' b' Lt) in H'.
      destruct IRes as [[N _]|(a1 & b1 & (P1 & _ & Ts) & _)]; [exact (N a' b' H')|].
      (* a passage was reported although the machine did not stop: its time would be the reserved number *)
      rewrite (Hw Hl) in Ts. unfold passage in P1. destruct P1 as (A & B & C & D & E).
      assert (Pr : L rise l (b1 - 1) <= e * sg rise).
      { destruct (Nat.eq_dec a1 b1) as [-> |N]; [lra|]. apply (D (b1 - 1)%nat). lia. }
      assert (Z : T l (b1 - 1) < T l b1).
      { assert (Z := strictly_snoc l x Hst (b1 - 1)%nat). replace (S (b1 - 1)) with b1 in Z by lia. apply Z. lia. }
      destruct (xt_bounds rise e l b1 Pr E Z) as [_ X]. rewrite <- Ts in X.
      assert (Y : T l b1 < BIGBIG). { unfold T. apply Hbig, in_or_app. left. apply nth_In. lia. } lra. }
    unfold slew_step. destruct (s_stat w) eqn:St.
    + (* WAITING *)
      destruct IStat as (W1 & W2 & W3).
      assert (NP : forall a, ~ passage rise s e (l ++ [x]) a (length l)).
      { intros a H. apply passage_last in H; [|exact Hse]. destruct H as [_ [(-> & A & B)|B]]; [|exact (W2 a B)].
        apply W1. split; [intros ->; cbn in A; lia|exact B]. }
      unfold sinv. cbn [s_stat s_stop s_low s_start s_try].
      destruct (in_order (snd x) s e) eqn:I1.
      * split; [intros _ _; now rewrite LL|]. split; [now apply Carry|]. split; [apply low_snoc, O1; reflexivity|exact W3].
      * assert (I1' : ~ snd x * sg rise <= s * sg rise) by (intros H; apply O1 in H; congruence).
        split; [intros _ _; now rewrite LL|]. split; [now apply Carry|]. split; [intros H; apply low_snoc in H; contradiction|].
        split; [|exact W3]. intros a H. apply inside_snoc in H; [|exact Hse]. destruct H as (_ & _ & [(-> & A & B)|B]); [|exact (W2 a B)].
        apply W1. split; [intros ->; cbn in A; lia|exact B].
    + (* READY *)
      destruct IStat as ((Ne & Lw) & R3). specialize (ILow ltac:(congruence) Ne).
      assert (Ln : (1 <= length l)%nat) by (destruct l; [congruence|cbn; lia]).
      destruct (in_order (snd x) s e) eqn:I1.
      * assert (I1' := proj1 O1 eq_refl).
        unfold sinv. cbn [s_stat s_stop s_low s_start s_try]. split; [intros _ _; now rewrite LL|].
        split; [|split; [now apply low_snoc|exact R3]]. apply Carry. intros a H. apply passage_last in H; [|exact Hse]. lra.
      * assert (I1' : ~ snd x * sg rise <= s * sg rise) by (intros H; apply O1 in H; congruence).
        destruct (in_order s (snd x) e) eqn:I2.
        -- assert (I2' := proj1 O2 eq_refl).
           unfold sinv. cbn [s_stat s_stop s_low s_start s_try]. split; [intros _ _; now rewrite LL|].
           split; [apply Carry; intros a H; apply passage_last in H; [|exact Hse]; lra|]. split; [|exact R3].
           exists (length l). split; [apply inside_snoc; [exact Hse|]; split; [lra|]; split; [lra|]; left; split; [reflexivity|]; split; [exact Ln|exact Lw]|].
           rewrite nth_last', nth_snoc, ILow by lia. reflexivity.
        -- assert (I2' : ~ (s * sg rise <= snd x * sg rise /\ snd x * sg rise <= e * sg rise)) by (intros H; apply O2 in H; congruence).
           assert (Hx : e * sg rise < snd x * sg rise).
           { destruct (Qlt_le_dec (e * sg rise) (snd x * sg rise)) as [|Y]; [assumption|exfalso; apply I2'; lra]. }
           rewrite (proj2 O3 ltac:(lra)).
           assert (Hp : passage rise s e (l ++ [x]) (length l) (length l)).
           { apply passage_last; [exact Hse|]. split; [exact Hx|]. left. split; [reflexivity|]. split; [exact Ln|exact Lw]. }
           unfold sinv. cbn [s_stat s_stop s_low s_start s_try]. split; [congruence|]. split.
           ++ right. apply (New (length l) _ _ Hp R3).
              ** rewrite nth_last', nth_snoc, ILow by lia. reflexivity.
              ** rewrite nth_last', nth_snoc, ILow by lia. reflexivity.
           ++ intros X. assert (Y := Small _ Hp). rewrite nth_last', nth_snoc, <- ILow in Y by lia.
              unfold line_time in X. unfold xt in Y. rewrite X in Y. lra.
    + (* IN_RANGE *)
      destruct IStat as ((a & Ia & Ta) & R3).
      assert (Ne : l <> []). { intros ->. unfold inside in Ia. cbn in Ia. lia. }
      specialize (ILow ltac:(congruence) Ne).
      assert (Ln : (1 <= a < length l)%nat) by (unfold inside in Ia; tauto).
      assert (NL : ~ low_at rise s l).
      { intros [_ H]. unfold inside in Ia. destruct Ia as (_ & _ & Ia). specialize (Ia (length l - 1)%nat ltac:(lia)). lra. }
      destruct (in_order (snd x) s e) eqn:I1.
      * assert (I1' := proj1 O1 eq_refl).
        unfold sinv. cbn [s_stat s_stop s_low s_start s_try]. split; [intros _ _; now rewrite LL|].
        split; [|split; [now apply low_snoc|exact R3]]. apply Carry. intros a' H. apply passage_last in H; [|exact Hse]. lra.
      * assert (I1' : ~ snd x * sg rise <= s * sg rise) by (intros H; apply O1 in H; congruence).
        destruct (in_order s (snd x) e) eqn:I2.
        -- assert (I2' := proj1 O2 eq_refl).
           unfold sinv. cbn [s_stat s_stop s_low s_start s_try]. split; [intros _ _; now rewrite LL|].
           split; [apply Carry; intros a' H; apply passage_last in H; [|exact Hse]; lra|]. split; [|exact R3].
           exists a. split; [apply inside_snoc; [exact Hse|]; split; [lra|]; split; [lra|]; right; exact Ia|].
           rewrite !nth_snoc by lia. exact Ta.
        -- assert (I2' : ~ (s * sg rise <= snd x * sg rise /\ snd x * sg rise <= e * sg rise)) by (intros H; apply O2 in H; congruence).
           assert (Hx : e * sg rise < snd x * sg rise).
           { destruct (Qlt_le_dec (e * sg rise) (snd x * sg rise)) as [|Y]; [assumption|exfalso; apply I2'; lra]. }
           rewrite (proj2 O3 ltac:(lra)).
           assert (Hp : passage rise s e (l ++ [x]) a (length l)).
           { apply passage_last; [exact Hse|]. split; [exact Hx|]. right. exact Ia. }
           assert (NewR := New a (s_try w) (line_time e (s_low w) x) Hp R3).
           rewrite !nth_last', !nth_snoc, <- ILow in NewR by lia. specialize (NewR Ta ltac:(reflexivity)).
           assert (Y := Small _ Hp). rewrite nth_last', nth_snoc, <- ILow in Y by lia.
           unfold sinv. cbn [s_stat s_stop s_low s_start s_try].
           split; [intros _ _; now rewrite LL|]. split; [right; exact NewR|].
           destruct last.
           ++ split; [intros H; apply low_snoc in H; contradiction|]. split; [|discriminate].
              intros a' H. apply inside_snoc in H; [|exact Hse]. lra.
           ++ intros X. unfold line_time in X. unfold xt in Y. rewrite X in Y. lra.
    + (* DONE *)
      unfold sinv. rewrite St. split; [congruence|]. split; [|exact IStat].
      destruct IRes as [[_ H2]|(a & b & H1 & H2)]; [contradiction|right].
      exists a, b. split; [now apply timed_snoc|]. intros Hl a' b' H.
      destruct (le_lt_dec (length l) b') as [G|G].
      * destruct H1 as [P1 _]. unfold passage in P1. lia.
      * apply (H2 Hl a' b'). now apply (passage_snoc rise s e l x a' b' G).
Qed.

(* the rate is the level difference over the time from crossing the start level to crossing the
   stop level, of the first passage; no passage: the reserved number *)
Theorem C56_slewrate : forall (last rise : bool) (s e : Q) t after before, recorded t -> strictly t ->
  (if rise then s < e else e < s) ->
  exists r, measure_slewrate last s e t after before = Val (Some r) /\
    let l := points t after before in
    ((exists a b t1 t2, passage rise s e l a b /\ on_segment l a s t1 /\ on_segment l b e t2 /\ t1 < t2 /\
        r == (e - s) / (t2 - t1) /\
        (last = false -> forall a' b', passage rise s e l a' b' -> (b <= b')%nat)) \/
     ((forall a b, ~ passage rise s e l a b) /\ r = BIGBIG)).
Proof.
  intros last rise s e t after before Hr Hst0 Hse0.
  assert (Hse : s * sg rise < e * sg rise) by (unfold sg; destruct rise; lra).
  destruct (window_points t after before Hr) as (b & e' & E & Vv & Hb & He & _).
  unfold measure_slewrate. rewrite E, Vv.
  assert (Hst : strictly (points t after before)).
  { intros i Hi. rewrite <- Vv in *. unfold visited, T in *. cbn [fst snd] in *. rewrite firstn_length, skipn_length in Hi.
    assert (G : forall n (l : list (Q * Q)) k, (k < n)%nat -> nth k (firstn n l) (0, 0) = nth k l (0, 0)).
    { induction n as [|n IH]; intros [|a l] [|k] Hk; cbn; try reflexivity; try lia. apply IH. lia. }
    rewrite !G by lia. rewrite !nth_skipn. replace (b + S i)%nat with (S (b + i)) by lia. apply Hst0. lia. }
  assert (Hbig : forall p, In p (points t after before) -> fst p < BIGBIG).
  { intros p Hp. apply filter_In in Hp. now apply (proj2 Hr). }
  assert (I := slew_inv last rise s e (points t after before) Hse Hbig Hst).
  set (l := points t after before) in *.
  set (w := fold_left (slew_step last s e) l (mk_sw sWAITING BIGBIG BIGBIG BIGBIG (0, 0))) in *. clearbody w.
  unfold sinv in I. destruct I as (_ & I & _).
  destruct I as [[H1 H2]|(a & c & (P & T1 & T2) & Hf)].
  - rewrite H2. destruct (qltb_spec BIGBIG BIGBIG); [lra|]. eexists. split; [reflexivity|]. cbv zeta. right. split; [exact H1|reflexivity].
  - assert (P' := P). unfold passage in P'. destruct P' as (A & B & C & D & Eq).
    assert (Pb : L rise l (c - 1) <= e * sg rise).
    { destruct (Nat.eq_dec a c) as [-> |N]; [lra|]. apply (D (c - 1)%nat). lia. }
    assert (Pa : s * sg rise < L rise l a).
    { destruct (Nat.eq_dec a c) as [-> |N]; [lra|]. apply (D a). lia. }
    assert (Za : T l (a - 1) < T l a) by (assert (Z := Hst (a - 1)%nat); replace (S (a - 1)) with a in Z by lia; apply Z; lia).
    assert (Zc : T l (c - 1) < T l c) by (assert (Z := Hst (c - 1)%nat); replace (S (c - 1)) with c in Z by lia; apply Z; lia).
    destruct (xt_bounds rise s l a C Pa Za) as [Xa1 Xa2]. destruct (xt_bounds rise e l c Pb Eq Zc) as [Xc1 Xc2].
    rewrite <- T1 in Xa1, Xa2. rewrite <- T2 in Xc1, Xc2.
    assert (Hlt : s_start w < s_stop w).
    { destruct (Nat.eq_dec a c) as [-> |N].
      - rewrite T1, T2. unfold xt. fold (T l (c - 1)) (T l c) (V l (c - 1)) (V l c). unfold L in C, Eq.
        set (va := V l (c - 1)) in *. set (vb := V l c) in *. set (ta := T l (c - 1)) in *. set (tb := T l c) in *.
        assert (G : 0 < (e - s) / (vb - va)).
        { unfold sg in *. destruct rise; [apply Qlt_shift_div_l; lra|].
          assert (E0 : (e - s) / (vb - va) == (s - e) / (va - vb)) by (field; lra). rewrite E0. apply Qlt_shift_div_l; lra. }
        assert (G2 : 0 < (e - s) / (vb - va) * (tb - ta)) by (apply Qmult_lt_0_compat; lra).
        assert (G3 : (e - va) / (vb - va) * (tb - ta) == (s - va) / (vb - va) * (tb - ta) + (e - s) / (vb - va) * (tb - ta)).
        { field. unfold sg in *. destruct rise; lra. }
        lra.
      - assert (M : T l a <= T l (c - 1)) by (apply points_sorted; [exact Hr|lia|unfold l in B; lia]). lra. }
    assert (Tc : T l c < BIGBIG) by (unfold T; apply Hbig, nth_In; lia).
    destruct (qltb_spec (s_stop w) BIGBIG) as [_|X]; [|lra].
    destruct (qltb_spec (s_start w) (s_stop w)) as [_|X]; [|lra].
    eexists. split; [reflexivity|]. cbv zeta. left. exists a, c, (s_start w), (s_stop w). split; [exact P|].
    assert (Seg : forall k v x, L rise l (k - 1) <= v * sg rise -> v * sg rise < L rise l k -> T l (k - 1) < T l k ->
      x == xt v (nth (k - 1) l (0, 0)) (nth k l (0, 0)) -> T l (k - 1) <= x -> x < T l k -> on_segment l k v x).
    { intros k v x H1 H2 H3 H4 H5 H6. unfold on_segment. split; [lra|]. split; [lra|]. rewrite H4. unfold xt, L in *.
      fold (T l (k - 1)) (T l k) (V l (k - 1)) (V l k). field. unfold sg in *. destruct rise; lra. }
    split; [apply (Seg a s); assumption|]. split; [apply (Seg c e); assumption|]. split; [exact Hlt|]. split; [reflexivity|exact Hf].
Qed.

(* asked for the last passage, the measurement can report an earlier one: one that passes both
   levels in a single step ends the search *)
Theorem C56_last_refuted : exists t s e after before r a b a' b', recorded t /\ s < e /\
  measure_slewrate true s e t after before = Val (Some r) /\
  passage true s e (points t after before) a b /\ passage true s e (points t after before) a' b' /\ (b < b')%nat /\
  r == (e - s) / ((T t b - T t (b - 1)) * (1 # 2)) /\ ~ r == (e - s) / ((T t b' - T t (b' - 1)) * (1 # 2)).
Proof.
  exists [(0, 0); (1, 4); (2, 0); (4, 4)], 1, 3, 0, 4. eexists. exists 1%nat, 1%nat, 3%nat, 3%nat.
  split.
  { split; [intros [|[|[|[|i]]]] [|[|[|[|j]]]] Hi Hj; cbn in *; try lia; lra|].
    intros p [<- |[<- |[<- |[<- |[]]]]]; cbn [fst snd]; repeat split; reflexivity. }
  split; [reflexivity|]. split; [vm_compute; reflexivity|].
  split; [|split; [|split; [lia|split; [reflexivity|discriminate]]]].
  - unfold passage. cbn [length points filter]. split; [lia|]. split; [vm_compute; lia|]. split; [discriminate|]. split; [intros i Hi; lia|reflexivity].
  - unfold passage. cbn [length points filter]. split; [lia|]. split; [vm_compute; lia|]. split; [discriminate|]. split; [intros i Hi; lia|reflexivity].
Qed.

(* ---------- cases ---------- *)

Definition wv : list (Q * Q) := [(0, 0); (1, 2); (2, 2); (3, 5); (4, 1); (5, 5)].
Lemma wv_rec : recorded wv.
Proof.
  split; [intros [|[|[|[|[|[|i]]]]]] [|[|[|[|[|[|j]]]]]] Hi Hj; cbn in *; try lia; lra|].
  intros p [<- |[<- |[<- |[<- |[<- |[<- |[]]]]]]]; cbn [fst snd]; repeat split; reflexivity.
Qed.
Lemma wv_strict : strictly wv.
Proof. intros [|[|[|[|[|[|i]]]]]] Hi; cbn in *; try lia; reflexivity. Qed.
Example C40_case : exists t2 m2, measure_max false wv (1 # 2) 5 = Val (3, 5) /\ measure_max true wv (1 # 2) 5 = Val (5, 5) /\
  measure_min false wv 1 3 = Val (t2, m2) /\ t2 == 1 /\ m2 == 2.
Proof. eexists. eexists. repeat split. Qed.
Example C41_case : exists x, measure_cross false true 2 wv 0 5 = Val x /\ x == 2 /\ crossing true 2 wv 3 /\
  (exists y, measure_cross true false 4 wv 0 5 = Val y /\ y == 13 # 4).
Proof.
  eexists. split; [reflexivity|]. split; [reflexivity|]. split; [|eexists; split; reflexivity].
  unfold crossing. split; [cbn; lia|]. split; [reflexivity|]. exists 0%nat. split; [lia|]. split; [reflexivity|].
  intros [|[|[|i]]] Hi; cbn; try lia; discriminate.
Qed.
Example C42_case : exists a v r, measure_integral wv 0 3 = Val a /\ a == 13 # 2 /\ 0 < span wv 0 3 /\
  measure_average wv 0 3 = Val (Some v) /\ v == 13 # 6 /\ measure_rms_squared wv 0 3 = Val (Some r) /\ r == 41 # 6.
Proof. do 3 eexists. repeat split. Qed.
Example C44_case : to_pow_of_2 92 = Some 128%Z.
Proof. reflexivity. Qed.
Example C56_case : exists r, measure_slewrate false 1 4 wv 0 5 = Val (Some r) /\ r == 18 # 13 /\ passage true 1 4 (points wv 0 5) 1 3.
Proof.
  eexists. split; [reflexivity|]. split; [reflexivity|]. unfold passage. cbn [points].
  split; [lia|]. split; [cbn; lia|]. split; [discriminate|]. split; [|reflexivity].
  intros [|[|[|i]]] Hi; try lia; cbn; split; try reflexivity; discriminate.
Qed.

Print Assumptions C40_max.
Print Assumptions C40_min.
Print Assumptions C41_cross.
Print Assumptions C42_integral.
Print Assumptions C42_line.
Print Assumptions C42_additive.
Print Assumptions C42_linear.
Print Assumptions C42_average.
Print Assumptions C42_rms.
Print Assumptions C42_short_window_refuted.
Print Assumptions C44_power.
Print Assumptions C44_exact_power_refuted.
Print Assumptions C56_slewrate.
Print Assumptions C56_last_refuted.
