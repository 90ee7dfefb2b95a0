(* C45: shared component data *)
Require Import ZArith List Bool Lia.
Require Import ZifyBool.
Require Import Verif.Loops Verif.Common_Model.
Import ListNotations.
Local Open Scope Z_scope.

Section C.
Context {D : Type} (same : D -> D -> bool).

Inductive op := Make (d : D) | Make_static (d : D) | Attach (c : option nat) (k : nat) | Detach (k : nat) | Set_param (f : D -> D) (k : nat).
Definition step (o : op) (st : state D) : option (state D) :=
  match o with
  | Make d => Some (fst (make 0 d false st))
  | Make_static d => Some (fst (make CC_STATIC d true st))
  | Attach c k => attach same c k st
  | Detach k => detach k st
  | Set_param f k => set_param same f k st
  end.
(* what callers must respect: a pointer passed in points to a live object, a holder exists, and only
   a component that has a common sets parameters through it *)
Definition allowed (o : op) (st : state D) : Prop :=
  match o with
  | Make _ | Make_static _ => True
  | Attach c k => (k < length (slots st))%nat /\ match c with Some i => heap st i <> None | None => True end
  | Detach k => (k < length (slots st))%nat
  | Set_param _ k => exists i, nth_error (slots st) k = Some (Some i)
  end.
(* n holders, none attached *)
Definition start (n : nat) : state D := State (fun _ => None) 0 (repeat None n).
Inductive reachable (n : nat) : state D -> Prop :=
| r_start : reachable n (start n)
| r_step : forall st o st', reachable n st -> allowed o st -> step o st = Some st' -> reachable n st'.

Definition holders (st : state D) (i : nat) : Z :=
  Z.of_nat (length (filter (fun p => match p with Some j => Nat.eqb j i | None => false end) (slots st))).

Definition Inv (n : nat) (st : state D) : Prop :=
  length (slots st) = n /\
  (forall i, (next st <= i)%nat -> heap st i = None) /\
  (forall i, match heap st i with
    | Some o => count o = (if static o then CC_STATIC else 0) + holders st i
    | None => holders st i = 0 end).

Definition hb (i : nat) (p : option nat) : Z := match p with Some j => if Nat.eqb j i then 1 else 0 | None => 0 end.
Lemma set_nth_len : forall l k v, length (set_nth l k v) = length l.
Proof. induction l as [|x l IH]; intros [|k] v; cbn; try reflexivity. now rewrite IH. Qed.
Lemma set_nth_count : forall l k v p i, nth_error l k = Some p ->
  Z.of_nat (length (filter (fun p => match p with Some j => Nat.eqb j i | None => false end) (set_nth l k v))) =
  Z.of_nat (length (filter (fun p => match p with Some j => Nat.eqb j i | None => false end) l)) - hb i p + hb i v.
Proof.
  induction l as [|x l IH]; intros [|k] v p i H; cbn in *; try discriminate.
  - injection H as <-. unfold hb. destruct v as [v|], x as [x|]; cbn [filter]; repeat (destruct (Nat.eqb _ i)); cbn [length]; lia.
  - specialize (IH k v p i H). destruct x as [x|]; [destruct (Nat.eqb x i)|]; cbn [length]; lia.
Qed.
Lemma nth_set : forall l k v, (k < length l)%nat -> nth_error (set_nth l k v) k = Some v.
Proof. induction l as [|x l IH]; intros [|k] v H; cbn in *; try lia; [reflexivity|]. apply IH. lia. Qed.
Lemma nth_set_other : forall l k v k2, k2 <> k -> nth_error (set_nth l k v) k2 = nth_error l k2.
Proof. induction l as [|x l IH]; intros [|k] v [|k2] H; cbn; try reflexivity; try lia. apply IH. lia. Qed.
Lemma holders_slot : forall st k v p i, nth_error (slots st) k = Some p -> holders (set_slot st k v) i = holders st i - hb i p + hb i v.
Proof. intros st k v p i H. unfold holders, set_slot. cbn [slots]. now apply set_nth_count. Qed.
Lemma holders_nonneg : forall st i, 0 <= holders st i. Proof. intros. unfold holders. lia. Qed.
Lemma holds_pos : forall l k i, nth_error l k = Some (Some i) -> 0 < Z.of_nat (length (filter (fun p => match p with Some j => Nat.eqb j i | None => false end) l)).
Proof.
  induction l as [|x l IH]; intros [|k] i H; cbn in *; try discriminate.
  - injection H as ->. rewrite Nat.eqb_refl. cbn [length]. lia.
  - specialize (IH k i H). destruct x as [x|]; [destruct (Nat.eqb x i)|]; cbn [length]; lia.
Qed.
Lemma two_holders : forall l k k2 i, k <> k2 -> nth_error l k = Some (Some i) -> nth_error l k2 = Some (Some i) ->
  1 < Z.of_nat (length (filter (fun p => match p with Some j => Nat.eqb j i | None => false end) l)).
Proof.
  induction l as [|x l IH]; intros [|k] [|k2] i N H H2; cbn in H, H2; try discriminate; try lia.
  - injection H as ->. cbn [filter]. rewrite Nat.eqb_refl. cbn [length]. pose proof (holds_pos _ _ _ H2). lia.
  - injection H2 as ->. cbn [filter]. rewrite Nat.eqb_refl. cbn [length]. pose proof (holds_pos _ _ _ H). lia.
  - specialize (IH k k2 i ltac:(lia) H H2). cbn [filter]. destruct x as [x|]; [destruct (Nat.eqb x i)|]; cbn [length]; lia.
Qed.

Lemma inv_held_live : forall n st k i, Inv n st -> nth_error (slots st) k = Some (Some i) -> exists o, heap st i = Some o /\ 0 < count o /\ (static o = false -> count o = holders st i) /\ (static o = true -> CC_STATIC < count o).
Proof.
  intros n st k i (_ & _ & I) H. specialize (I i). pose proof (holds_pos _ _ _ H) as P. fold (holders st i) in P. destruct (heap st i) as [o|]; [|lia].
  exists o. split; [reflexivity|]. unfold CC_STATIC in *. destruct (static o); split; try lia; split; intros; try lia; discriminate.
Qed.

Lemma detach_ok : forall n st k, Inv n st -> (k < length (slots st))%nat -> exists st', detach k st = Some st' /\ Inv n st' /\
  slots st' = set_nth (slots st) k None /\ next st' = next st /\
  (forall i, heap st' i = match heap st i with
     | Some o => if (static o || (0 <? holders st' i) || negb (hb i (match nth_error (slots st) k with Some p => p | None => None end) =? 1))%bool then Some (set_count o (count o - hb i (match nth_error (slots st) k with Some p => p | None => None end))) else None
     | None => None end).
Proof.
  intros n st k I Hk. destruct (nth_error (slots st) k) as [p|] eqn:Ep; [|apply nth_error_None in Ep; lia]. unfold detach. rewrite Ep. cbn [bind].
  assert (Hset : forall p', p' = p -> forall s : state D, slots s = slots st -> forall i, holders (set_slot s k None) i = holders st i - hb i p).
  { intros p' _ s Es i. rewrite (holders_slot s k None p) by now rewrite Es. unfold holders. rewrite Es. cbn [hb]. lia. }
  destruct p as [i|].
  - destruct (inv_held_live _ _ _ _ I Ep) as (o & Eo & Pc & Hd & Hs). rewrite Eo. cbn [bind]. destruct (count o >? 0) eqn:Ec; [|lia].
    destruct I as (I1 & I2 & I3). cbn [count set_count]. destruct (count o - 1 =? 0) eqn:E0.
    + unfold delete. cbn [set_heap heap]. rewrite Nat.eqb_refl. cbn [bind count set_count]. rewrite E0. cbn [orb bind].
      eexists. split; [reflexivity|]. 
      assert (Hst : static o = false) by (destruct (static o) eqn:Es; [specialize (Hs eq_refl); unfold CC_STATIC in *; lia|reflexivity]). specialize (Hd Hst).
      split; [|split; [reflexivity|split; [reflexivity|]]].
      * split; [cbn; rewrite set_nth_len; exact I1|]. split; [intros j Hj; cbn; destruct (Nat.eqb j i); [reflexivity|]; now apply I2|].
        intros j. rewrite (Hset _ eq_refl) by reflexivity. cbn [set_slot set_heap heap hb]. specialize (I3 j). destruct (Nat.eqb_spec j i) as [->|N].
        { rewrite Nat.eqb_refl. lia. } { destruct (Nat.eqb_spec i j) as [X|_]; [congruence|]. destruct (heap st j); lia. }
      * intros j. cbn [set_slot set_heap heap hb]. destruct (Nat.eqb_spec j i) as [->|N].
        { rewrite Nat.eqb_refl, Eo, Hst. match goal with |- None = if (_ || ?a || _)%bool then _ else _ => assert (Z0 : a = false) end; [|rewrite Z0; reflexivity].
          change (slots (set_slot (set_heap (set_heap st i (Some (set_count o (count o - 1)))) i None) k None)) with (set_nth (slots st) k None).
          pose proof (Hset _ eq_refl (set_heap (set_heap st i (Some (set_count o (count o - 1)))) i None) eq_refl i) as X. rewrite X. cbn [hb]. rewrite Nat.eqb_refl. lia. }
        { destruct (Nat.eqb_spec i j) as [X|_]; [congruence|]. destruct (heap st j) as [oj|]; [|reflexivity]. rewrite orb_true_r. f_equal. destruct oj. unfold set_count. cbn. f_equal. lia. }
    + cbn [bind]. eexists. split; [reflexivity|]. split; [|split; [reflexivity|split; [reflexivity|]]].
      * split; [cbn; rewrite set_nth_len; exact I1|]. split; [intros j Hj; cbn; destruct (Nat.eqb_spec j i) as [->|]; [specialize (I2 i Hj); congruence|now apply I2]|].
        intros j. rewrite (Hset _ eq_refl) by reflexivity. cbn [set_slot set_heap heap hb]. specialize (I3 j). destruct (Nat.eqb_spec j i) as [->|N].
        { rewrite Nat.eqb_refl. rewrite Eo in I3. cbn [set_count count static]. lia. } { destruct (Nat.eqb_spec i j) as [X|_]; [congruence|]. destruct (heap st j); lia. }
      * intros j. pose proof (Hset _ eq_refl (set_heap st i (Some (set_count o (count o - 1)))) eq_refl j) as X. rewrite X. cbn [set_slot set_heap heap hb]. destruct (Nat.eqb_spec j i) as [->|N].
        { rewrite Nat.eqb_refl, Eo. specialize (I3 i). rewrite Eo in I3. destruct (static o) eqn:Es; [reflexivity|]. specialize (Hd eq_refl). destruct (0 <? holders st i - 1) eqn:E9; [reflexivity|lia]. }
        { destruct (Nat.eqb_spec i j) as [Y|_]; [congruence|]. destruct (heap st j) as [oj|]; [|reflexivity]. rewrite orb_true_r. f_equal. destruct oj. unfold set_count. cbn. f_equal. lia. }
  - eexists. split; [reflexivity|]. split; [assumption|]. split; [|split; [reflexivity|]].
    + clear -Ep. revert k Ep. induction (slots st) as [|x l IH]; intros [|k] H; cbn in *; try discriminate; [now injection H as ->|]. f_equal. now apply IH.
    + intros j. cbn [hb]. destruct (heap st j) as [oj|]; [|reflexivity]. rewrite orb_true_r. f_equal. destruct oj. unfold set_count. cbn. f_equal. lia.
Qed.
Lemma grab_ok : forall n st k i, Inv n st -> nth_error (slots st) k = Some None -> heap st i <> None -> exists st', grab i k st = Some st' /\ Inv n st' /\
  slots st' = set_nth (slots st) k (Some i) /\ next st' = next st /\
  (forall j, heap st' j = match heap st j with Some o => Some (set_count o (count o + hb j (Some i))) | None => None end).
Proof.
  intros n st k i I Hk Hi. unfold grab. destruct (heap st i) as [o|] eqn:Eo; [|contradiction]. cbn [bind]. eexists. split; [reflexivity|]. destruct I as (I1 & I2 & I3).
  split; [|split; [reflexivity|split; [reflexivity|]]].
  - split; [cbn; rewrite set_nth_len; exact I1|]. split; [intros j Hj; cbn; destruct (Nat.eqb_spec j i) as [->|]; [specialize (I2 i Hj); congruence|now apply I2]|].
    intros j. rewrite (holders_slot _ k (Some i) None) by exact Hk. cbn [set_slot set_heap heap]. specialize (I3 j).
    change (holders (set_heap st i (Some (set_count o (count o + 1)))) j) with (holders st j). cbn [hb]. destruct (Nat.eqb_spec j i) as [->|N].
    + rewrite Nat.eqb_refl. rewrite Eo in I3. cbn [set_count count static]. lia.
    + destruct (Nat.eqb_spec i j) as [X|_]; [congruence|]. destruct (heap st j); lia.
  - intros j. cbn [set_slot set_heap heap hb]. destruct (Nat.eqb_spec j i) as [->|N].
    + rewrite Nat.eqb_refl, Eo. reflexivity.
    + destruct (Nat.eqb_spec i j) as [X|_]; [congruence|]. destruct (heap st j) as [oj|]; [|reflexivity]. f_equal. destruct oj. unfold set_count. cbn. f_equal. lia.
Qed.
Lemma delete_ok : forall n st i o, Inv n st -> heap st i = Some o -> count o = 0 -> exists st', delete i st = Some st' /\ Inv n st' /\ slots st' = slots st /\ next st' = next st /\
  (forall j, heap st' j = if Nat.eqb j i then None else heap st j) /\ holders st i = 0.
Proof.
  intros n st i o (I1 & I2 & I3) E C. unfold delete. rewrite E. cbn [bind]. rewrite C. cbn [Z.eqb orb]. eexists. split; [reflexivity|].
  assert (H0 : holders st i = 0) by (specialize (I3 i); rewrite E, C in I3; pose proof (holders_nonneg st i); unfold CC_STATIC in *; destruct (static o); lia).
  split; [|split; [reflexivity|split; [reflexivity|split; [reflexivity|exact H0]]]].
  split; [exact I1|]. split; [intros j Hj; cbn; destruct (Nat.eqb j i); [reflexivity|now apply I2]|]. intros j. cbn [set_heap heap].
  change (holders (set_heap st i None) j) with (holders st j). destruct (Nat.eqb_spec j i) as [->|N]; [exact H0|apply I3].
Qed.

(* what attach does, seen from outside *)
Definition sees (st : state D) (k : nat) : option D :=
  match nth_error (slots st) k with Some (Some i) => option_map data (heap st i) | _ => None end.

Lemma attach_ok : forall n st k c, Inv n st -> (k < length (slots st))%nat -> match c with Some i => heap st i <> None | None => True end ->
  exists st', attach same c k st = Some st' /\ Inv n st' /\ next st' = next st /\
    (forall k2, k2 <> k -> nth_error (slots st') k2 = nth_error (slots st) k2) /\
    (forall j o', heap st' j = Some o' -> exists o, heap st j = Some o /\ data o' = data o /\ static o' = static o) /\
    (forall j o, heap st j = Some o -> (static o = true \/ 0 < holders st' j) -> heap st' j <> None) /\
    (nth_error (slots st') k = Some c \/ exists i j oi oj, c = Some i /\ nth_error (slots st) k = Some (Some j) /\ nth_error (slots st') k = Some (Some j) /\
        heap st i = Some oi /\ heap st j = Some oj /\ same (data oi) (data oj) = true /\ heap st' j = Some oj).
Proof.
  intros n st k c I Hk Hc. destruct (nth_error (slots st) k) as [p|] eqn:Ep; [|apply nth_error_None in Ep; lia]. unfold attach. rewrite Ep. cbn [bind].
  assert (Nop : exists st', Some st = Some st' /\ Inv n st' /\ next st' = next st /\ (forall k2, k2 <> k -> nth_error (slots st') k2 = nth_error (slots st) k2) /\
     (forall j o', heap st' j = Some o' -> exists o, heap st j = Some o /\ data o' = data o /\ static o' = static o) /\
     (forall j o, heap st j = Some o -> (static o = true \/ 0 < holders st' j) -> heap st' j <> None) /\ st' = st).
  { exists st. split; [reflexivity|]. split; [assumption|]. split; [reflexivity|]. split; [reflexivity|]. split; [intros j o' H; now exists o'|]. split; [intros; congruence|reflexivity]. }
  destruct (ptr_eqb c p) eqn:Eq.
  { destruct Nop as (st' & E & A1 & A2 & A3 & A4 & A5 & ->). exists st. repeat (split; [assumption|]). left. rewrite Ep. f_equal.
    destruct c as [i|], p as [j|]; cbn in Eq; try discriminate; [apply Nat.eqb_eq in Eq; now subst|reflexivity]. }
  assert (Hdata : forall s : state D, forall f : nat -> Z, (forall j, heap s j = match heap st j with Some o => Some (set_count o (f j)) | None => None end) -> True) by auto. clear Hdata.
  destruct c as [i|].
  - destruct p as [j|].
    + destruct (heap st i) as [oi|] eqn:Ei; [|contradiction]. cbn [bind]. destruct (inv_held_live _ _ _ _ I Ep) as (oj & Ej & Pj & _ & _). rewrite Ej. cbn [bind].
      destruct (same (data oi) (data oj)) eqn:Es; cbn [negb].
      * destruct (count oi =? 0) eqn:E0.
        { destruct (delete_ok n st i oi I Ei ltac:(lia)) as (st' & E & I' & Sl & Nx & Hp & H0). rewrite E. exists st'. split; [reflexivity|]. split; [assumption|]. split; [assumption|].
          split; [intros; now rewrite Sl|]. split; [intros q o' H; rewrite Hp in H; destruct (Nat.eqb q i); [discriminate|]; now exists o'|]. split.
          - intros q o H W. rewrite Hp. destruct (Nat.eqb_spec q i) as [->|N]; [|congruence]. exfalso.
            assert (holders st' i = holders st i) by (unfold holders; now rewrite Sl).
            destruct I as (_ & _ & I3). specialize (I3 i). rewrite Ei in I3. rewrite Ei in H. injection H as <-. unfold CC_STATIC in *. destruct (static oi); [lia|]. destruct W as [W|W]; [discriminate|lia].
          - right. exists i, j, oi, oj. cbn in Eq. assert (N : j <> i) by (intros ->; rewrite Nat.eqb_refl in Eq; discriminate).
            split; [reflexivity|]. split; [reflexivity|]. split; [now rewrite Sl|]. repeat (split; [assumption|]). rewrite Hp. destruct (Nat.eqb_spec j i); [contradiction|assumption]. }
        { destruct Nop as (st' & E & A1 & A2 & A3 & A4 & A5 & ->). exists st. repeat (split; [assumption|]). right. exists i, j, oi, oj. auto 10. }
      * destruct (detach_ok n st k I Hk) as (s1 & E1 & I1 & Sl1 & Nx1 & Hp1). rewrite Ep in Hp1. rewrite E1. cbn [bind].
        assert (N : i <> j) by (intros ->; cbn in Eq; rewrite Nat.eqb_refl in Eq; discriminate).
        assert (Li : heap s1 i <> None).
        { rewrite Hp1, Ei. cbn [hb]. destruct (Nat.eqb_spec j i) as [X|_]; [congruence|]. cbn. rewrite orb_true_r. discriminate. }
        destruct (grab_ok n s1 k i I1) as (s2 & E2 & I2 & Sl2 & Nx2 & Hp2); [rewrite Sl1; now apply nth_set|assumption|]. rewrite E2.
        exists s2. split; [reflexivity|]. split; [assumption|]. split; [congruence|]. split.
        { intros k2 Hk2. now rewrite Sl2, nth_set_other, Sl1, nth_set_other. }
        split.
        { intros q o' H. rewrite Hp2, Hp1 in H. destruct (heap st q) as [oq|]; [|discriminate]. exists oq. split; [reflexivity|].
          match type of H with match (if ?b then _ else _) with _ => _ end = _ => destruct b end; [|discriminate]. injection H as <-. split; reflexivity. }
        split.
        { intros q o H W. rewrite Hp2, Hp1, H. assert (W' : (static o || (0 <? holders s1 q) || negb (hb q (Some j) =? 1))%bool = true).
          { destruct W as [->|W]; [reflexivity|]. destruct (Nat.eqb_spec j q) as [->|X].
            - assert (holders s2 q = holders s1 q) as Eh.
              { assert (X : holders s2 q = holders (set_slot s1 k (Some i)) q) by (unfold holders, set_slot; cbn [slots]; now rewrite Sl2).
                rewrite X, (holders_slot s1 k (Some i) None) by (rewrite Sl1; now apply nth_set). cbn [hb]. destruct (Nat.eqb_spec i q); [contradiction|lia]. }
              destruct (0 <? holders s1 q) eqn:E9; [now rewrite orb_true_r|lia].
            - cbn [hb]. destruct (Nat.eqb_spec j q); [contradiction|]. cbn. now rewrite orb_true_r. }
          rewrite W'. discriminate. }
        left. rewrite Sl2. apply nth_set. rewrite Sl1, set_nth_len. exact Hk.
    + destruct (grab_ok n st k i I Ep Hc) as (s2 & E2 & I2 & Sl2 & Nx2 & Hp2). rewrite E2. exists s2. split; [reflexivity|]. split; [assumption|]. split; [assumption|].
      split; [intros k2 H2; now rewrite Sl2, nth_set_other|]. split.
      { intros q o' H. rewrite Hp2 in H. destruct (heap st q) as [oq|]; [|discriminate]. injection H as <-. exists oq. repeat split. }
      split; [intros q o H _; rewrite Hp2, H; discriminate|]. left. rewrite Sl2. now apply nth_set.
  - destruct (detach_ok n st k I Hk) as (s1 & E1 & I1 & Sl1 & Nx1 & Hp1). rewrite Ep in Hp1. rewrite E1. exists s1. split; [reflexivity|]. split; [assumption|]. split; [assumption|].
    split; [intros k2 H2; now rewrite Sl1, nth_set_other|]. split.
    { intros q o' H. rewrite Hp1 in H. destruct (heap st q) as [oq|]; [|discriminate]. exists oq. split; [reflexivity|].
      match type of H with (if ?b then _ else _) = _ => destruct b end; [|discriminate]. injection H as <-. split; reflexivity. }
    split.
    { intros q o H W. rewrite Hp1, H. destruct W as [->|W]; [discriminate|]. destruct (0 <? holders s1 q) eqn:E9; [rewrite orb_true_r; discriminate|lia]. }
    left. rewrite Sl1. now apply nth_set.
Qed.

Lemma make_inv : forall n st c d (b : bool), Inv n st -> c = (if b then CC_STATIC else 0) -> Inv n (fst (make c d b st)).
Proof.
  intros n st c d b (I1 & I2 & I3) ->. split; [exact I1|]. split.
  - intros i Hi. cbn in *. destruct (Nat.eqb_spec i (next st)) as [->|]; [lia|]. apply I2. lia.
  - intros i. cbn [make fst heap]. specialize (I3 i). change (holders (State _ _ _) i) with (holders st i). destruct (Nat.eqb_spec i (next st)) as [->|]; [|exact I3].
    rewrite I2 in I3 by lia. cbn [count static]. rewrite I3. lia.
Qed.
Lemma same_slots_holders : forall (a b : state D) i, slots a = slots b -> holders a i = holders b i.
Proof. intros a b i E. unfold holders. now rewrite E. Qed.

Lemma set_param_ok : forall n st k f i, Inv n st -> nth_error (slots st) k = Some (Some i) -> exists st', set_param same f k st = Some st' /\ Inv n st' /\
  (forall k2, k2 <> k -> nth_error (slots st') k2 = nth_error (slots st) k2 /\ sees st' k2 = sees st k2) /\
  (exists d, sees st k = Some d /\ (sees st' k = Some (f d) \/ sees st' k = Some d /\ same (f d) d = true)) /\
  (forall j o, heap st j = Some o -> static o = true -> heap st' j = Some o \/ exists c, heap st' j = Some (set_count o c)).
Proof.
  intros n st k f i I Hk. unfold set_param. rewrite Hk. cbn [bind]. destruct (inv_held_live _ _ _ _ I Hk) as (o & Eo & Pc & Hd & Hs). rewrite Eo. cbn [bind].
  assert (Sk : sees st k = Some (data o)) by (unfold sees; rewrite Hk, Eo; reflexivity).
  destruct (count o >? 1) eqn:Ec; cbn [negb].
  - set (st1 := fst (make 0 (f (data o)) false st)). assert (Em : make 0 (f (data o)) false st = (st1, next st)) by reflexivity. rewrite Em.
    assert (I1 : Inv n st1) by (apply make_inv; [assumption|reflexivity]).
    assert (L1 : (k < length (slots st1))%nat) by (apply nth_error_Some; cbn; congruence).
    assert (Hn : heap st1 (next st) = Some (Obj 0 (f (data o)) false)) by (cbn; now rewrite Nat.eqb_refl).
    assert (Ho : forall j, (j < next st)%nat -> heap st1 j = heap st j) by (intros j Hj; cbn; destruct (Nat.eqb_spec j (next st)); [lia|reflexivity]).
    assert (Live : forall j q, nth_error (slots st) q = Some (Some j) -> (j < next st)%nat).
    { intros j q H. destruct (inv_held_live _ _ _ _ I H) as (oj & Ej & _). destruct (Nat.lt_ge_cases j (next st)) as [X|X]; [assumption|]. destruct I as (_ & I2 & _). rewrite (I2 j X) in Ej. discriminate. }
    destruct (attach_ok n st1 k (Some (next st)) I1 L1) as (st' & E & I' & Nx & Ot & Dt & Kp & R); [rewrite Hn; discriminate|].
    rewrite E. exists st'. split; [reflexivity|]. split; [assumption|]. split; [|split].
    + intros k2 N. split; [now apply Ot|]. unfold sees. rewrite (Ot k2 N). change (slots st1) with (slots st). destruct (nth_error (slots st) k2) as [[j|]|] eqn:E2; try reflexivity.
      destruct (inv_held_live _ _ _ _ I E2) as (oj & Ej & _). assert (Hj : heap st1 j = Some oj) by (rewrite Ho; [assumption|now apply Live with k2]).
      destruct (heap st' j) as [oj'|] eqn:Ej'.
      * destruct (Dt _ _ Ej') as (oo & Eoo & Ed & _). rewrite Hj in Eoo. injection Eoo as <-. rewrite Ej. cbn. now rewrite Ed.
      * exfalso. apply (Kp j oj Hj); [|assumption]. right. unfold holders. apply (holds_pos _ k2). rewrite (Ot k2 N). exact E2.
    + exists (data o). split; [assumption|]. destruct R as [R|(a & b & oa & ob & Ea & R1 & R2 & R3 & R4 & R5 & R6)].
      * left. unfold sees. rewrite R. destruct (heap st' (next st)) as [on|] eqn:En.
        { destruct (Dt _ _ En) as (oo & Eoo & Ed & _). rewrite Hn in Eoo. injection Eoo as <-. cbn. now rewrite Ed. }
        { exfalso. apply (Kp _ _ Hn); [|assumption]. right. unfold holders. apply (holds_pos _ k). exact R. }
      * right. injection Ea as <-. change (slots st1) with (slots st) in R1. rewrite Hk in R1. injection R1 as <-. rewrite Hn in R3. injection R3 as <-.
        rewrite Ho in R4 by now apply Live with k. rewrite Eo in R4. injection R4 as <-. split; [|exact R5]. unfold sees. now rewrite R2, R6.
    + intros j oj Ej St. assert (Hj : heap st1 j = Some oj).
      { rewrite Ho; [assumption|]. destruct (Nat.lt_ge_cases j (next st)) as [X|X]; [assumption|]. destruct I as (_ & J2 & _). rewrite (J2 j X) in Ej. discriminate. }
      destruct (heap st' j) as [oj'|] eqn:Ej'.
      * right. destruct (Dt _ _ Ej') as (oo & Eoo & Ed & Es). rewrite Hj in Eoo. injection Eoo as <-. exists (count oj'). destruct oj', oj. cbn in *. unfold set_count. cbn. now subst.
      * exfalso. apply (Kp j oj Hj); [now left|assumption].
  - eexists. split; [reflexivity|]. 
    assert (Hst : static o = false) by (destruct (static o) eqn:Es; [specialize (Hs eq_refl); unfold CC_STATIC in *; lia|reflexivity]). specialize (Hd Hst).
    destruct I as (I1 & I2 & I3). split.
    { split; [exact I1|]. split; [intros j Hj; cbn; destruct (Nat.eqb_spec j i) as [->|]; [rewrite I2 in Eo by assumption; discriminate|now apply I2]|].
      intros j. cbn [set_heap heap]. specialize (I3 j). change (holders (set_heap st i _) j) with (holders st j). destruct (Nat.eqb_spec j i) as [->|]; [|exact I3]. rewrite Eo in I3. exact I3. }
    split; [|split].
    + intros k2 N. split; [reflexivity|]. unfold sees. cbn [set_heap slots heap]. destruct (nth_error (slots st) k2) as [[j|]|] eqn:E2; try reflexivity.
      destruct (Nat.eqb_spec j i) as [->|]; [|reflexivity]. exfalso. pose proof (two_holders _ _ _ _ N E2 Hk) as T. fold (holders st i) in T. lia.
    + exists (data o). split; [assumption|]. left. unfold sees. cbn [set_heap slots heap]. rewrite Hk, Nat.eqb_refl. reflexivity.
    + intros j oj Ej St. left. cbn [set_heap heap]. destruct (Nat.eqb_spec j i) as [->|]; [congruence|assumption].
Qed.

Lemma start_inv : forall n, Inv n (start n).
Proof.
  intros n. split; [apply repeat_length|]. split; [reflexivity|]. intros i. cbn [start heap]. unfold holders. cbn [start slots].
  induction n as [|n IH]; [reflexivity|exact IH].
Qed.
Lemma step_inv : forall n st o, Inv n st -> allowed o st -> exists st', step o st = Some st' /\ Inv n st'.
Proof.
  intros n st o I A. destruct o as [d|d|c k|k|f k]; cbn [step allowed] in *.
  - eexists. split; [reflexivity|]. now apply make_inv.
  - eexists. split; [reflexivity|]. now apply make_inv.
  - destruct (attach_ok n st k c I (proj1 A) (proj2 A)) as (st' & E & I' & _). now exists st'.
  - destruct (detach_ok n st k I A) as (st' & E & I' & _). now exists st'.
  - destruct A as (i & Hi). destruct (set_param_ok n st k f i I Hi) as (st' & E & I' & _). now exists st'.
Qed.
Lemma reachable_inv : forall n st, reachable n st -> Inv n st.
Proof.
  intros n st H. induction H as [|st o st' _ IH A E]; [apply start_inv|]. destruct (step_inv n st o IH A) as (st2 & E2 & I2). congruence.
Qed.

(* ---- theorems ---- *)

(* in every reachable state: no operation a caller may perform is undefined (no use after free, no
   double free, no failed assert), every holder points to a live object, and the use count of every
   live object is the number of its holders (plus the reserve of static objects) *)
Theorem C45_counts_and_no_dangling : forall n st, reachable n st ->
  (forall o, allowed o st -> exists st', step o st = Some st') /\
  (forall k i, nth_error (slots st) k = Some (Some i) -> heap st i <> None) /\
  (forall i o, heap st i = Some o -> count o = (if static o then CC_STATIC else 0) + holders st i).
Proof.
  intros n st R. pose proof (reachable_inv n st R) as I. split; [|split].
  - intros o A. destruct (step_inv n st o I A) as (st' & E & _). now exists st'.
  - intros k i H. destruct (inv_held_live _ _ _ _ I H) as (o & E & _). congruence.
  - intros i o E. destruct I as (_ & _ & I3). specialize (I3 i). now rewrite E in I3.
Qed.

(* letting go: the object dies exactly if it is not static and this was its last holder *)
Theorem C45_freed_with_last_holder : forall n st k i, reachable n st -> nth_error (slots st) k = Some (Some i) ->
  exists st' o, detach k st = Some st' /\ heap st i = Some o /\ nth_error (slots st') k = Some None /\
    (heap st' i = None <-> static o = false /\ holders st i = 1) /\
    (forall j, j <> i -> heap st' j = heap st j) /\ (forall k2, k2 <> k -> nth_error (slots st') k2 = nth_error (slots st) k2).
Proof.
  intros n st k i R H. pose proof (reachable_inv n st R) as I. assert (Hk : (k < length (slots st))%nat) by (apply nth_error_Some; congruence).
  destruct (detach_ok n st k I Hk) as (st' & E & I' & Sl & Nx & Hp). rewrite H in Hp. destruct (inv_held_live _ _ _ _ I H) as (o & Eo & _).
  exists st', o. split; [exact E|]. split; [exact Eo|]. split; [rewrite Sl; now apply nth_set|].
  assert (Eh : holders st' i = holders st i - 1).
  { assert (X : holders st' i = holders (set_slot st k None) i) by (apply same_slots_holders; exact Sl). rewrite X, (holders_slot _ _ _ _ _ H). cbn [hb]. rewrite Nat.eqb_refl. lia. }
  split; [|split].
  - rewrite Hp, Eo. cbn [hb]. rewrite Nat.eqb_refl. cbn [Z.eqb Pos.eqb negb]. rewrite orb_false_r. pose proof (holders_nonneg st' i). destruct (static o); cbn [orb].
    + split; [discriminate|intros [X _]; discriminate].
    + destruct (0 <? holders st' i) eqn:E9; split; intros Y; try discriminate; try (exfalso; lia); [split; [reflexivity|lia]|reflexivity].
  - intros j N. rewrite Hp. cbn [hb]. destruct (Nat.eqb_spec i j) as [X|_]; [congruence|]. destruct (heap st j) as [oj|]; [|reflexivity]. rewrite orb_true_r. f_equal. destruct oj. unfold set_count. cbn. f_equal. lia.
  - intros k2 N. rewrite Sl. now apply nth_set_other.
Qed.

(* attaching: the holder now sees data equal to the given one (by the data's own comparison), no
   other holder sees a change, and static objects stay *)
Theorem C45_attach_effect : forall n st k i o, reachable n st -> (k < length (slots st))%nat -> heap st i = Some o ->
  exists st' d, attach same (Some i) k st = Some st' /\ sees st' k = Some d /\ (d = data o \/ same (data o) d = true) /\
    (forall k2, k2 <> k -> sees st' k2 = sees st k2) /\
    (forall j oj, heap st j = Some oj -> static oj = true -> heap st' j <> None).
Proof.
  intros n st k i o R Hk Hi. pose proof (reachable_inv n st R) as I.
  destruct (attach_ok n st k (Some i) I Hk) as (st' & E & I' & Nx & Ot & Dt & Kp & C); [congruence|].
  assert (S2 : forall k2 j oj, nth_error (slots st') k2 = Some (Some j) -> heap st j = Some oj -> exists oj', heap st' j = Some oj' /\ data oj' = data oj).
  { intros k2 j oj H Hj. destruct (heap st' j) as [oj'|] eqn:Ej'.
    - exists oj'. split; [reflexivity|]. destruct (Dt _ _ Ej') as (oo & Eoo & Ed & _). congruence.
    - exfalso. apply (Kp j oj Hj); [|assumption]. right. unfold holders. now apply (holds_pos _ k2). }
  assert (Oth : forall k2, k2 <> k -> sees st' k2 = sees st k2).
  { intros k2 N. unfold sees. pose proof (Ot k2 N) as En. destruct (nth_error (slots st') k2) as [[j|]|] eqn:E2; rewrite <- En; try reflexivity.
    destruct (inv_held_live _ _ _ _ I (eq_sym En)) as (oj & Ej & _). destruct (S2 k2 j oj E2 Ej) as (oj' & Ej' & Ed). rewrite Ej', Ej. cbn. now rewrite Ed. }
  destruct C as [C|(a & b & oa & ob & Ea & R1 & R2 & R3 & R4 & R5 & R6)].
  - destruct (S2 k i o C Hi) as (o' & Eo' & Ed). exists st', (data o'). split; [exact E|]. split; [unfold sees; now rewrite C, Eo'|]. split; [now left|]. split; [exact Oth|]. intros j oj Hj St. apply (Kp j oj Hj). now left.
  - injection Ea as <-. assert (oa = o) by congruence. subst oa. exists st', (data ob). split; [exact E|]. split; [unfold sees; now rewrite R2, R6|]. split; [now right|]. split; [exact Oth|]. intros j oj Hj St. apply (Kp j oj Hj). now left.
Qed.

(* setting a parameter through one holder gives that holder the new data and no other holder sees a
   change, provided data compared equal is equal *)
Theorem C45_set_param_is_private : forall n st k f, (forall a b, same a b = true -> a = b) -> reachable n st ->
  (exists i, nth_error (slots st) k = Some (Some i)) ->
  exists st' d, set_param same f k st = Some st' /\ sees st k = Some d /\ sees st' k = Some (f d) /\ forall k2, k2 <> k -> sees st' k2 = sees st k2.
Proof.
  intros n st k f Hs R (i & Hi). destruct (set_param_ok n st k f i (reachable_inv _ _ R) Hi) as (st' & E & _ & O & (d & S1 & S2) & _).
  exists st', d. split; [exact E|]. split; [exact S1|]. split; [|intros k2 N; now apply O]. destruct S2 as [S2|[S2 S3]]; [exact S2|]. apply Hs in S3. now rewrite S3.
Qed.
End C.
Print Assumptions C45_counts_and_no_dangling.
Print Assumptions C45_freed_with_last_holder.
Print Assumptions C45_attach_effect.
Print Assumptions C45_set_param_is_private.

(* two holders share object 0, one sets a parameter, the other lets go *)
Definition demo : list (@op Z) := [Make 5; Attach (Some 0%nat) 0; Attach (Some 0%nat) 1; Set_param (fun x => x + 1) 0; Detach 1].
Fixpoint run_ops (l : list (@op Z)) (st : state Z) : option (state Z) := match l with [] => Some st | o :: l' => let* s := step Z.eqb o st in run_ops l' s end.
Example C45_case : reachable Z.eqb 2 (start 2) /\ (let* st := run_ops demo (start 2) in Some (sees st 0, sees st 1, heap st 0%nat)) = Some (Some 6, None, None) /\
  (let* st := run_ops (firstn 4 demo) (start 2) in Some (sees st 0, sees st 1)) = Some (Some 6, Some 5).
Proof. split; [constructor|]. split; vm_compute; reflexivity. Qed.

(* when the data's comparison ignores something, setting that something on shared data is lost *)
Theorem C45_coarse_comparison_refuted : exists st, reachable (fun _ _ : Z => true) 2 st /\ 
  (let* st' := set_param (fun _ _ => true) (fun x => x + 1) 0 st in Some (sees st 0, sees st' 0)) = Some (Some 5, Some 5).
Proof.
  pose (same := fun _ _ : Z => true).
  pose (s1 := fst (make 0 5 false (start (D := Z) 2))).
  assert (R1 : reachable same 2 s1) by (eapply (r_step same 2 _ (Make 5)); [apply r_start|exact Logic.I|reflexivity]).
  destruct (attach same (Some 0%nat) 0 s1) as [s2|] eqn:E2; [|vm_compute in E2; discriminate].
  assert (R2 : reachable same 2 s2) by (eapply (r_step same 2 _ (Attach (Some 0%nat) 0)); [exact R1|split; [cbn; lia|cbn; discriminate]|exact E2]).
  vm_compute in E2. injection E2 as E2.
  destruct (attach same (Some 0%nat) 1 s2) as [s3|] eqn:E3; [|subst s2; vm_compute in E3; discriminate].
  assert (R3 : reachable same 2 s3) by (eapply (r_step same 2 _ (Attach (Some 0%nat) 1)); [exact R2|subst s2; split; [cbn; lia|cbn; discriminate]|exact E3]).
  exists s3. split; [exact R3|]. subst s2. vm_compute in E3. injection E3 as E3. subst s3. vm_compute. reflexivity.
Qed.
Print Assumptions C45_coarse_comparison_refuted.
