(* C39, C54, C55: gates, digital outputs, conversion from analog *)
Require Import ZArith QArith Lqa Lia List Bool Permutation.
Require Import Verif.Qnum Verif.Loops Verif.Logic_Model.
Import ListNotations.
Local Open Scope Q_scope.

(* ---------- C39 ---------- *)

(* three valued logic *)
Definition kand (a b : option bool) : option bool :=
  match a, b with
  | Some false, _ | _, Some false => Some false
  | Some true, Some true => Some true
  | _, _ => None
  end.
Definition kor (a b : option bool) : option bool :=
  match a, b with
  | Some true, _ | _, Some true => Some true
  | Some false, Some false => Some false
  | _, _ => None
  end.
Definition kxor (a b : option bool) : option bool :=
  match a, b with Some x, Some y => Some (xorb x y) | _, _ => None end.
Definition knot (a : option bool) : option bool := match a with Some x => Some (negb x) | None => None end.

Definition kgate (g : gate) (l : list (option bool)) : option bool :=
  match g with
  | gAND => fold_right kand (Some true) l
  | gNAND => knot (fold_right kand (Some true) l)
  | gOR => fold_right kor (Some false) l
  | gNOR => knot (fold_right kor (Some false) l)
  | gXOR => fold_right kxor (Some false) l
  | gXNOR => knot (fold_right kxor (Some false) l)
  | gINV => match l with a :: _ => knot a | [] => None end
  end.

(* boolean functions of any number of inputs *)
Definition bgate (g : gate) (l : list bool) : bool :=
  match g with
  | gAND => forallb (fun b => b) l
  | gNAND => negb (forallb (fun b => b) l)
  | gOR => existsb (fun b => b) l
  | gNOR => negb (existsb (fun b => b) l)
  | gXOR => Nat.odd (length (filter (fun b => b) l))
  | gXNOR => Nat.even (length (filter (fun b => b) l))
  | gINV => match l with a :: _ => negb a | [] => false end
  end.

Lemma fut_and : forall a b, lv_future (lv_and a b) = kand (lv_future a) (lv_future b).
Proof. destruct a, b; reflexivity. Qed.
Lemma fut_or : forall a b, lv_future (lv_or a b) = kor (lv_future a) (lv_future b).
Proof. destruct a, b; reflexivity. Qed.
Lemma fut_xor : forall a b, lv_future (lv_xor a b) = kxor (lv_future a) (lv_future b).
Proof. destruct a, b; reflexivity. Qed.
Lemma fut_not : forall a, lv_future (lv_not a) = knot (lv_future a).
Proof. destruct a; reflexivity. Qed.

Lemma kfold : forall (op : LV -> LV -> LV) (k : option bool -> option bool -> option bool) z,
  (forall a b, lv_future (op a b) = k (lv_future a) (lv_future b)) ->
  (forall a, k a z = a) -> (forall a b c, k a (k b c) = k (k a b) c) ->
  forall r a, lv_future (fold_left op r a) = fold_right k z (map lv_future (a :: r)).
Proof.
  intros op k z H Hz Ha r. induction r as [|b r IH]; intros a; cbn [fold_left].
  - cbn. now rewrite Hz.
  - rewrite IH. cbn [map fold_right]. rewrite H. now rewrite Ha.
Qed.

(* the value an output is going to is the gate's function, in three valued logic, of the values
   its inputs are going to *)
Theorem C39_gates : forall g n, n <> [] -> exists v, logic_eval g n = Some v /\
  lv_future v = kgate g (map lv_future n).
Proof.
  intros g [|a r] Hn; [congruence|]. eexists. split; [reflexivity|].
  destruct g; cbn [kgate]; rewrite ?fut_not; try (apply f_equal).
  1,2: apply (kfold lv_and kand (Some true) fut_and); intros;
    repeat match goal with x : option bool |- _ => destruct x as [[|]|] end; reflexivity.
  1,2: apply (kfold lv_or kor (Some false) fut_or); intros;
    repeat match goal with x : option bool |- _ => destruct x as [[|]|] end; reflexivity.
  1,2: apply (kfold lv_xor kxor (Some false) fut_xor); intros;
    repeat match goal with x : option bool |- _ => destruct x as [[|]|] end; reflexivity.
  cbn [map]. reflexivity.
Qed.

Definition stable (b : bool) : LV := if b then S1 else S0.
Definition is_stable (a : LV) : Prop := a = S0 \/ a = S1.

Lemma fold_stable : forall (op : LV -> LV -> LV) (f : bool -> bool -> bool),
  (forall a b, op (stable a) (stable b) = stable (f a b)) ->
  forall r a, fold_left op (map stable r) (stable a) = stable (fold_left f r a).
Proof. intros op f H r; induction r as [|b r IH]; intros a; cbn; [reflexivity|]. now rewrite H, IH. Qed.

Lemma fold_andb : forall r a, fold_left andb r a = forallb (fun b => b) (a :: r).
Proof. induction r as [|b r IH]; intros a; cbn [fold_left]; [cbn; now rewrite andb_true_r|]. rewrite IH. cbn. now rewrite andb_assoc. Qed.
Lemma fold_orb : forall r a, fold_left orb r a = existsb (fun b => b) (a :: r).
Proof. induction r as [|b r IH]; intros a; cbn [fold_left]; [cbn; now rewrite orb_false_r|]. rewrite IH. cbn. now rewrite orb_assoc. Qed.
Lemma fold_xorb : forall r a, fold_left xorb r a = Nat.odd (length (filter (fun b => b) (a :: r))).
Proof.
  induction r as [|b r IH]; intros a; cbn [fold_left]; [now destruct a|]. rewrite IH.
  destruct a, b; cbn [xorb filter length]; rewrite ?Nat.odd_succ, <- ?Nat.negb_odd, ?Nat.odd_succ, <- ?Nat.negb_odd, ?negb_involutive; reflexivity.
Qed.

(* on stable inputs the output is stable and is the boolean function *)
Theorem C39_boolean : forall g l, l <> [] -> logic_eval g (map stable l) = Some (stable (bgate g l)).
Proof.
  intros g [|a r] Hl; [congruence|]. cbn [map logic_eval]. f_equal.
  assert (A : fold_left lv_and (map stable r) (stable a) = stable (forallb (fun b => b) (a :: r))).
  { rewrite (fold_stable lv_and andb) by (intros [] []; reflexivity). now rewrite fold_andb. }
  assert (O : fold_left lv_or (map stable r) (stable a) = stable (existsb (fun b => b) (a :: r))).
  { rewrite (fold_stable lv_or orb) by (intros [] []; reflexivity). now rewrite fold_orb. }
  assert (X : fold_left lv_xor (map stable r) (stable a) = stable (Nat.odd (length (filter (fun b => b) (a :: r))))).
  { rewrite (fold_stable lv_xor xorb) by (intros [] []; reflexivity). now rewrite fold_xorb. }
  assert (N : forall b, lv_not (stable b) = stable (negb b)) by (intros []; reflexivity).
  destruct g; cbn [bgate]; rewrite ?A, ?O, ?X, ?N; try reflexivity.
  now rewrite Nat.negb_odd.
Qed.

(* the order of the inputs of and, nand, or, nor, xor, xnor does not matter *)
Lemma fold_perm : forall (op : LV -> LV -> LV), (forall a b, op a b = op b a) -> (forall a b c, op a (op b c) = op (op a b) c) ->
  forall a r n', Permutation (a :: r) n' -> exists b s, n' = b :: s /\ fold_left op r a = fold_left op s b.
Proof.
  intros op Cm As a r n' P.
  assert (L : forall r r', Permutation r r' -> forall a, fold_left op r a = fold_left op r' a).
  { intros r0 r' P0; induction P0 as [|x l l' _ IH|x y l|l l' l'' _ IH1 _ IH2]; intros a0; cbn [fold_left]; auto.
    - replace (op (op a0 y) x) with (op (op a0 x) y); [reflexivity|]. rewrite <- !As. now rewrite (Cm x y).
    - now rewrite IH1, IH2. }
  assert (Sw : forall r a b, fold_left op r (op a b) = op a (fold_left op r b)).
  { induction r0 as [|c r0 IH]; intros a0 b0; cbn [fold_left]; [reflexivity|]. rewrite <- As. apply IH. }
  destruct n' as [|b s]; [apply Permutation_sym, Permutation_nil in P; discriminate|].
  exists b, s. split; [reflexivity|].
  (* both are the fold over the whole list with a repeated start, for an idempotent-free proof use the position of b *)
  assert (I : In b (a :: r)) by (apply Permutation_in with (b :: s); [now apply Permutation_sym|left; reflexivity]).
  destruct I as [-> | I].
  - apply L. now apply Permutation_cons_inv with b.
  - apply in_split in I. destruct I as (l1 & l2 & ->).
    assert (P1 : Permutation (a :: l1 ++ l2) s).
    { apply Permutation_cons_inv with b. eapply Permutation_trans; [|exact P].
      rewrite app_comm_cons. eapply Permutation_trans; [apply Permutation_middle|]. reflexivity. }
    rewrite <- (L _ _ P1). cbn [fold_left].
    rewrite (L (l1 ++ b :: l2) (b :: l1 ++ l2)) by (apply Permutation_sym, Permutation_middle).
    cbn [fold_left]. now rewrite Cm.
Qed.

Theorem C39_order : forall g n n', g <> gINV -> Permutation n n' -> logic_eval g n = logic_eval g n'.
Proof.
  intros g n n' Hg P. destruct n as [|a r].
  - apply Permutation_nil in P. now subst.
  - destruct (fold_perm lv_and) with (a := a) (r := r) (n' := n') as (b & s & E & H1); auto;
      [intros [] []; reflexivity|intros [] [] []; reflexivity|].
    destruct (fold_perm lv_or) with (a := a) (r := r) (n' := n') as (b2 & s2 & E2 & H2); auto;
      [intros [] []; reflexivity|intros [] [] []; reflexivity|].
    destruct (fold_perm lv_xor) with (a := a) (r := r) (n' := n') as (b3 & s3 & E3 & H3); auto;
      [intros [] []; reflexivity|intros [] [] []; reflexivity|].
    subst n'. inversion E2; inversion E3; subst. cbn [logic_eval].
    destruct g; rewrite ?H1, ?H2, ?H3; congruence.
Qed.

(* a controlling input decides the output, whatever the others are *)
Theorem C39_controlling : forall n,
  (In S0 n -> logic_eval gAND n = Some S0 /\ logic_eval gNAND n = Some S1) /\
  (In S1 n -> logic_eval gOR n = Some S1 /\ logic_eval gNOR n = Some S0).
Proof.
  intros n.
  assert (A0 : forall r, fold_left lv_and r S0 = S0) by (induction r as [|[] r IH]; cbn; auto).
  assert (O1 : forall r, fold_left lv_or r S1 = S1) by (induction r as [|[] r IH]; cbn; auto).
  assert (A : forall r a, In S0 (a :: r) -> fold_left lv_and r a = S0).
  { induction r as [|b r IH]; intros a I; cbn [fold_left].
    - destruct I as [-> | []]. reflexivity.
    - apply IH. destruct I as [-> | [-> | I]]; [left; now destruct b|left; now destruct a|right; exact I]. }
  assert (O : forall r a, In S1 (a :: r) -> fold_left lv_or r a = S1).
  { induction r as [|b r IH]; intros a I; cbn [fold_left].
    - destruct I as [-> | []]. reflexivity.
    - apply IH. destruct I as [-> | [-> | I]]; [left; now destruct b|left; now destruct a|right; exact I]. }
  split; intros I; destruct n as [|a r]; try contradiction; cbn [logic_eval];
    [rewrite (A r a I)|rewrite (O r a I)]; split; reflexivity.
Qed.

(* inversion twice is nothing, exchanges rising and falling, and De Morgan's laws hold *)
Theorem C39_inversion : forall a b, lv_not (lv_not a) = a /\ lv_not R = F /\ lv_not F = R /\
  lv_not (lv_and a b) = lv_or (lv_not a) (lv_not b) /\ lv_not (lv_or a b) = lv_and (lv_not a) (lv_not b).
Proof. intros [] []; repeat split. Qed.

(* after acceptance, with every input stable, the output is on its way to (or at) the boolean
   function of the inputs *)
Theorem C39_output : forall g l static now ft q n, l <> [] -> (static = true -> now == 0) ->
  exists n', accept_digital g (map stable l) static now ft q n = Some n' /\
    lv_future (n_lv n') = Some (bgate g l).
Proof.
  intros g l static now ft q n Hl H0. unfold accept_digital. rewrite C39_boolean by exact Hl. cbn [bind].
  destruct static.
  - destruct (n_lv n) eqn:E; cbn [andb].
    1-4: destruct (bgate g l) eqn:B; cbn; unfold set_event; rewrite ?E; cbn; eexists; (split; [reflexivity|]); cbn; rewrite ?E; reflexivity.
    destruct (qeqb_spec now 0) as [|N]; [|exfalso; apply N; now apply H0]. cbn [bind]. eexists. split; [reflexivity|].
    cbn. now destruct (bgate g l).
  - rewrite andb_false_r.
    destruct (n_lv n) eqn:E; destruct (bgate g l) eqn:B; cbn; unfold set_event; rewrite ?E; cbn;
      eexists; (split; [reflexivity|]); cbn; rewrite ?E; reflexivity.
Qed.

(* the value from before a transition *)
Definition before (v : LV) : option bool :=
  match v with S0 | R => Some false | F | S1 => Some true | U => None end.
(* while inputs are moving, the output heads for the value from before the movement, unless it is
   already in the state the gate gives *)
Theorem C39_moving : forall g inputs now ft q n fs, logic_eval g inputs = Some fs -> fs <> U ->
  exists n', accept_digital g inputs false now ft q n = Some n' /\
    (fs <> n_lv n -> lv_future (n_lv n') = before fs) /\
    (fs = n_lv n \/ n_lv n <> U /\ lv_future (n_lv n) = before fs -> n_lv n' = n_lv n /\ n_final n' = n_final n) /\
    (fs <> n_lv n -> n_lv n = U \/ lv_future (n_lv n) <> before fs -> n_final n' = Some ft /\ n_last n' = now).
Proof.
  intros g inputs now ft q n fs E Hu. unfold accept_digital. rewrite E. cbn [bind]. rewrite andb_false_r.
  destruct n as [l o f la ol qq]. cbn [n_lv n_final].
  destruct fs, l; try congruence; cbn; eexists; (split; [reflexivity|]); cbn;
    repeat split; intros; try congruence; try reflexivity; try (destruct H as [H|[H H']]; congruence); try (destruct H0 as [H0|H0]; congruence).
Qed.

(* ---------- C54: digital outputs ---------- *)

(* an event takes the output to the new value: on the way it is marked as rising or falling, at
   the event time it is stable *)
Theorem C54_event : forall now ft dynamic b n t, now <= ft -> ft <= t ->
  exists n1 n2, set_event now ft dynamic (stable b) n = Some n1 /\ lv_future (n_lv n1) = Some b /\
    n_final n1 = Some ft /\ n_last n1 = now /\ n_old n1 = n_old n /\
    digital_advance t n1 = Some n2 /\ n_lv n2 = stable b /\ n_final n2 = None.
Proof.
  intros now ft dynamic b n t H1 H2. unfold set_event.
  assert (G : exists l, set_in_transition (n_lv n) (stable b) = Some l /\ lv_future l = Some b /\
              (match l with R => S1 | F => S0 | x => x end) = stable b).
  { destruct (n_lv n), b; eexists; repeat split. }
  destruct G as (l & E & Fl & Pl). rewrite E. cbn [bind]. eexists. eexists. split; [reflexivity|].
  split; [exact Fl|]. do 3 (split; [reflexivity|]). unfold digital_advance. cbn [n_final].
  destruct (qleb_spec ft t) as [_|X]; [|lra]. split; [reflexivity|]. split; [|reflexivity]. cbn [n_lv]. destruct l; exact Pl.
Qed.

(* before the event time nothing changes *)
Theorem C54_not_early : forall n ft t, n_final n = Some ft -> t < ft -> digital_advance t n = Some n.
Proof. intros n ft t E L. unfold digital_advance. rewrite E. destruct (qleb_spec ft t); [lra|reflexivity]. Qed.

(* going back before a transition made at its event time undoes it *)
Theorem C54_undo : forall n ft t, n_final n = Some ft -> n_old n = n_lv n -> n_oldlast n = n_last n ->
  n_last n <= t -> t < ft ->
  exists n1, digital_advance ft n = Some n1 /\ digital_regress t n1 = Some n.
Proof.
  intros [l o f la ol q] ft t E1 E2 E3 L1 L2. cbn in *. subst. unfold digital_advance. cbn [n_final].
  destruct (qleb_spec ft ft) as [_|X]; [|lra]. eexists. split; [reflexivity|].
  unfold digital_regress. cbn. destruct (qltb_spec t ft) as [_|X]; [|lra]. reflexivity.
Qed.

(* if the transition is made later than its event time, going back leaves it due at that later
   time *)
Theorem C54_late_undo_refuted : exists n ft t T n1 n2, n_final n = Some ft /\ n_old n = n_lv n /\
  n_oldlast n = n_last n /\ n_last n <= ft /\ ft < t /\ t < T /\
  digital_advance T n = Some n1 /\ digital_regress t n1 = Some n2 /\ n_lv n2 = R /\ n_final n2 = Some T.
Proof.
  exists (mkN R R (Some 1) 0 0 5), 1, 2, 3. eexists. eexists. repeat split; try (cbn; lra); reflexivity.
Qed.

(* the voltage of an output: at its level when stable; on the way, a ramp of the rise (or fall)
   time that ends at the event time *)
Theorem C54_ramp : forall m n t, vmin m <= vmax m -> 0 < lrise m -> 0 < lfall m -> n_lv n <> U ->
  vmin m <= to_analog m t n /\ to_analog m t n <= vmax m /\
  (n_lv n = S0 -> to_analog m t n == vmin m) /\ (n_lv n = S1 -> to_analog m t n == vmax m) /\
  (forall ft, n_final n = Some ft -> n_lv n = R ->
    (t <= ft - lrise m -> to_analog m t n == vmin m) /\ (ft <= t -> to_analog m t n == vmax m) /\
    (ft - lrise m <= t -> t <= ft ->
      to_analog m t n == vmin m + (vmax m - vmin m) * (t - (ft - lrise m)) / lrise m)) /\
  (forall ft, n_final n = Some ft -> n_lv n = F ->
    (t <= ft - lfall m -> to_analog m t n == vmax m) /\ (ft <= t -> to_analog m t n == vmin m) /\
    (ft - lfall m <= t -> t <= ft ->
      to_analog m t n == vmax m - (vmax m - vmin m) * (t - (ft - lfall m)) / lfall m)).
Proof.
  intros m n t Hv Hr Hf Hu. unfold to_analog.
  assert (G : forall start stop rf ft, 0 < rf ->
    let r := if qleb t (ft - rf) then start else if qleb ft t then stop else stop - (stop - start) * (ft - t) / rf in
    exists k, 0 <= k /\ k <= 1 /\ r == start + (stop - start) * k /\
      (t <= ft - rf -> k == 0) /\ (ft <= t -> k == 1) /\
      (ft - rf <= t -> t <= ft -> k == (t - (ft - rf)) / rf)).
  { intros start stop rf ft P. cbv zeta.
    destruct (qleb_spec t (ft - rf)) as [A|A].
    - exists 0. repeat split; try lra; try discriminate. 
      intros B _. assert (E : t == ft - rf) by lra. rewrite E. field. lra.
    - destruct (qleb_spec ft t) as [B|B].
      + exists 1. repeat split; try lra; try discriminate.
        intros _ C. assert (E : t == ft) by lra. rewrite E. field. lra.
      + exists ((t - (ft - rf)) / rf). split; [apply Qle_shift_div_l; lra|]. split; [apply Qle_shift_div_r; lra|].
        split; [field; lra|]. repeat split; intros; try lra; reflexivity. }
  assert (M : forall k, 0 <= k -> k <= 1 -> 0 <= (vmax m - vmin m) * k /\ (vmax m - vmin m) * k <= vmax m - vmin m).
  { intros k K0 K1. split; [apply Qmult_le_0_compat; lra|].
    assert ((vmax m - vmin m) * k <= (vmax m - vmin m) * 1).
    { rewrite (Qmult_comm _ k), (Qmult_comm _ 1). apply Qmult_le_compat_r; lra. } lra. }
  destruct (n_lv n) eqn:E; [| | | |congruence].
  - repeat split; intros; try lra; discriminate.
  - destruct (n_final n) as [ft|].
    + destruct (G (vmin m) (vmax m) (lrise m) ft Hr) as (k & K0 & K1 & Ek & A & B & C). cbv zeta in Ek.
      destruct (M k K0 K1) as [M0 M1]. rewrite !Ek.
      split; [lra|]. split; [lra|]. split; [discriminate|]. split; [discriminate|]. split; [|intros; discriminate].
      intros ft' Hft _. inversion Hft; subst ft'. repeat split; intros.
      * rewrite Ek, A by assumption. ring.
      * rewrite Ek, B by assumption. ring.
      * rewrite Ek, C by assumption. field. lra.
    + repeat split; intros; try lra; discriminate.
  - destruct (n_final n) as [ft|].
    + destruct (G (vmax m) (vmin m) (lfall m) ft Hf) as (k & K0 & K1 & Ek & A & B & C). cbv zeta in Ek.
      destruct (M k K0 K1) as [M0 M1]. rewrite !Ek.
      assert (Sg : (vmin m - vmax m) * k == - ((vmax m - vmin m) * k)) by ring.
      split; [lra|]. split; [lra|]. split; [discriminate|]. split; [discriminate|]. split; [intros; discriminate|].
      intros ft' Hft _. inversion Hft; subst ft'. repeat split; intros.
      * rewrite Ek, A by assumption. ring.
      * rewrite Ek, B by assumption. ring.
      * rewrite Ek, C by assumption. field. lra.
    + repeat split; intros; try lra; discriminate.
  - repeat split; intros; try lra; discriminate.
Qed.

(* ---------- C55: conversion from analog ---------- *)

(* the value read from a voltage during a transient moving forward *)
Theorem C55_value : forall m now v0 vt1 n, n_last n <= now ->
  exists n', to_logic m false now v0 vt1 n = Some n' /\ n_last n' = now /\
    (th1 m <= v0 / range m -> n_lv n' = S1) /\
    (v0 / range m <= th0 m -> v0 / range m < th1 m -> n_lv n' = S0) /\
    (th0 m < v0 / range m -> v0 / range m < th1 m ->
      (vt1 / range m < v0 / range m -> n_lv n' = R) /\ (v0 / range m < vt1 / range m -> n_lv n' = F) /\
      (v0 / range m == vt1 / range m -> n_lv n' = n_lv n /\ n_q n' = 0%Z)).
Proof.
  intros m now v0 vt1 n H. unfold to_logic. cbn [n_last n_oldlast].
  destruct (qltb_spec (now - n_last n) 0) as [X|_]; [lra|]. cbn [bind].
  set (sv := v0 / range m). set (osv := vt1 / range m).
  destruct (qleb_spec (th1 m) sv) as [A|A].
  - eexists. split; [reflexivity|]. cbn [n_lv n_last]. repeat split; intros; try reflexivity; lra.
  - destruct (qleb_spec sv (th0 m)) as [B|B].
    + eexists. split; [reflexivity|]. cbn [n_lv n_last]. repeat split; intros; try reflexivity; lra.
    + destruct (qltb_spec 0 (sv - osv)) as [C|C].
      * eexists. split; [reflexivity|]. cbn [n_lv n_last]. repeat split; intros; try reflexivity; lra.
      * destruct (qltb_spec (sv - osv) 0) as [D|D].
        -- eexists. split; [reflexivity|]. cbn [n_lv n_last]. repeat split; intros; try reflexivity; lra.
        -- eexists. split; [reflexivity|]. cbn [n_lv n_last n_q n_old store_old].
           repeat split; intros; try reflexivity; try lra.
           destruct (qltb (1 + over m) sv || qltb sv (- over m)); destruct (n_lv n); reflexivity.
Qed.

(* the quality stays between bad and good *)
Theorem C55_quality : forall m static now v0 vt1 n n', (0 <= n_q n <= transits m)%Z ->
  to_logic m static now v0 vt1 n = Some n' -> (0 <= n_q n' <= transits m)%Z.
Proof.
  intros m static now v0 vt1 n n' Q0. unfold to_logic.
  set (n1 := if static then mkN U (n_old n) (n_final n) 0 0 (n_q n) else n).
  assert (Q1 : (0 <= n_q n1 <= transits m)%Z) by (unfold n1; destruct static; exact Q0). clearbody n1.
  assert (G : forall (n2 : lnode), (0 <= n_q n2 <= transits m)%Z ->
    forall lq, (0 <= snd lq <= transits m)%Z ->
    forall r, (let (l, q) := (lq : LV * Z) in
      let q := if qltb (1 + over m) (v0 / range m) || qltb (v0 / range m) (- over m) then 0%Z else q in
      let q := if newly_stable (n_old n2) l then if Z.ltb q (transits m) then (q + 1)%Z else q else q in
      Some (mkN l (n_old n2) (n_final n2) now (n_oldlast n2) q)) = Some r -> (0 <= n_q r <= transits m)%Z).
  { intros n2 Q2 [l q] Hq r E. cbn [snd] in Hq. inversion E; subst r. cbn [n_q].
    destruct (qltb (1 + over m) (v0 / range m) || qltb (v0 / range m) (- over m));
      destruct (newly_stable (n_old n2) l); try lia.
    - destruct (Z.ltb_spec 0 (transits m)); lia.
    - destruct (Z.ltb_spec q (transits m)); lia. }
  destruct (qltb (now - n_last n1) 0).
  - destruct (qleb (now - n_oldlast n1) 0); [discriminate|]. cbn [bind n_lv n_q].
    intros E. refine (G _ _ _ _ _ E); [exact Q1|]. clear E G.
    destruct (qleb (th1 m) (v0 / range m)); [destruct (n_old n1); cbn; lia|].
    destruct (qleb (v0 / range m) (th0 m)); [destruct (n_old n1); cbn; lia|].
    destruct (qltb 0 (v0 / range m - vt1 / range m)).
    { destruct (n_old n1); cbn; try lia. destruct (qltb _ _); lia. }
    destruct (qltb (v0 / range m - vt1 / range m) 0); [|cbn; lia].
    destruct (n_old n1); cbn; try lia. destruct (qltb _ _); lia.
  - cbn [bind n_lv n_q store_old].
    intros E. refine (G (store_old n1) _ _ _ _ E); [exact Q1|]. clear E G. cbn [n_lv n_q store_old].
    destruct (qleb (th1 m) (v0 / range m)); [destruct (n_lv n1); cbn; lia|].
    destruct (qleb (v0 / range m) (th0 m)); [destruct (n_lv n1); cbn; lia|].
    destruct (qltb 0 (v0 / range m - vt1 / range m)).
    { destruct (n_lv n1); cbn; try lia. destruct (qltb _ _); lia. }
    destruct (qltb (v0 / range m - vt1 / range m) 0); [|cbn; lia].
    destruct (n_lv n1); cbn; try lia. destruct (qltb _ _); lia.
Qed.

(* a stable output is read back as what it is, when 0 volts is the low level *)
Theorem C55_round_trip : forall m t now n k vt1 b, vmin m == 0 -> 0 < vmax m -> th1 m <= 1 -> 0 <= th0 m -> 0 < th1 m ->
  n_lv n = stable b -> n_last k <= now ->
  exists k', to_logic m false now (to_analog m t n) vt1 k = Some k' /\ n_lv k' = n_lv n.
Proof.
  intros m t now n k vt1 b V0 V1 T1 T0 T2 E L.
  destruct (C55_value m now (to_analog m t n) vt1 k L) as (k' & Ek & _ & A & B & _).
  exists k'. split; [exact Ek|].
  assert (Rg : range m == vmax m) by (unfold range; lra).
  unfold to_analog in A, B. rewrite E in A, B |- *. destruct b; cbn in *.
  - apply A. assert (E1 : vmax m / range m == 1) by (rewrite Rg; field; lra). rewrite E1. exact T1.
  - assert (E0 : vmin m / range m == 0) by (rewrite V0, Rg; unfold Qdiv; ring). apply B; rewrite E0; assumption.
Qed.

(* with another low level it is not: thresholds are fractions of the range, but the voltage is
   not measured from the low level *)
Theorem C55_offset_levels_refuted : exists m n k k', vmin m == -5 /\ vmax m == 5 /\ th1 m == 3#4 /\ th0 m == 1#4 /\
  n_lv n = S1 /\ to_logic m false 1 (to_analog m 1 n) 0 k = Some k' /\ n_lv k' <> S1.
Proof.
  exists (mkL 1 5 (-5) 0 1 1 (3#4) (1#4) 5 5 (1#10) 2), (mkN S1 S1 None 0 0 2), (mkN S0 S0 None 0 0 2). eexists.
  repeat split; try reflexivity. discriminate.
Qed.

(* ---------- cases ---------- *)

Example C39_case : logic_eval gNAND [S1; R; U; S0] = Some S1 /\ logic_eval gXOR [S1; S1; S1; R] = Some F /\
  Permutation [S1; R; U; S0] [U; S0; S1; R] /\ logic_eval gAND [S1; R; F] = Some F.
Proof.
  repeat split. apply (Permutation_app_comm [S1; R] [U; S0]).
Qed.
Example C39_moving_case : (* a falling input of an or: the output, low, is sent high *)
  logic_eval gOR [S0; F] = Some F /\ exists n', accept_digital gOR [S0; F] false 1 3 2 (mkN S0 S0 None 0 0 2) = Some n' /\ n_lv n' = R /\ n_final n' = Some 3.
Proof. split; [reflexivity|]. eexists. repeat split. Qed.
Definition m5 : lmodel := mkL 1 5 0 (5#2) 2 2 (3#4) (1#4) 5 5 (1#10) 2.
Example C54_case : exists n1, set_event 1 4 true S1 (mkN S0 S0 None 0 0 2) = Some n1 /\
  to_analog m5 3 n1 == 5#2 /\ to_analog m5 2 n1 == 0 /\ to_analog m5 4 n1 == 5.
Proof. eexists. split; [reflexivity|]. repeat split. Qed.
Example C55_case : exists n', to_logic m5 false 3 2 1 (mkN S0 S0 None 2 0 1) = Some n' /\ n_lv n' = R /\ n_q n' = 1%Z.
Proof. eexists. split; [reflexivity|]. split; reflexivity. Qed.

Print Assumptions C39_gates.
Print Assumptions C39_boolean.
Print Assumptions C39_order.
Print Assumptions C39_controlling.
Print Assumptions C39_inversion.
Print Assumptions C39_output.
Print Assumptions C39_moving.
Print Assumptions C54_event.
Print Assumptions C54_not_early.
Print Assumptions C54_undo.
Print Assumptions C54_late_undo_refuted.
Print Assumptions C54_ramp.
Print Assumptions C55_value.
Print Assumptions C55_quality.
Print Assumptions C55_round_trip.
Print Assumptions C55_offset_levels_refuted.
