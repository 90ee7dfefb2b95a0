(* Lemmas for P_Fault.v: the store, the stack of faults and the attach counts. *)
Require Import String Ascii List Bool ZArith QArith Lia ZifyBool.
Require Import Verif.Loops Verif.CS_Model Verif.Wmatch_Model Verif.Fault_Model.
Import ListNotations.
Open Scope Z_scope.
Open Scope list_scope.

(* the same world, function by function *)
Definition weq (a b : world) : Prop :=
  (forall i, w_live a i = w_live b i) /\ (forall i, w_elem a i = w_elem b i) /\ (forall k, w_cnt a k = w_cnt b k) /\ w_stack a = w_stack b.
Definition oweq (x y : outcome world) : Prop :=
  match x, y with Done a, Done b => weq a b | Undef, Undef => True | Throw, Throw => True | NoEnd, NoEnd => True | _, _ => False end.
Lemma weq_refl : forall w, weq w w.
Proof. repeat split. Qed.
Lemma weq_sym : forall a b, weq a b -> weq b a.
Proof. intros a b (A & B & C & D). repeat split; intros; symmetry; auto. Qed.
Lemma weq_trans : forall a b c, weq a b -> weq b c -> weq a c.
Proof. intros a b c (A & B & C & D) (A' & B' & C' & D'). repeat split; intros; [rewrite A|rewrite B|rewrite C|rewrite D]; auto. Qed.
Lemma oweq_refl : forall x, oweq x x.
Proof. intros []; cbn; auto using weq_refl. Qed.
Lemma oweq_trans : forall x y z, oweq x y -> oweq y z -> oweq x z.
Proof. intros [] [] []; cbn; intros; try contradiction; auto. eapply weq_trans; eassumption. Qed.
Lemma oweq_bind : forall x y f g, oweq x y -> (forall a b, weq a b -> oweq (f a) (g b)) -> oweq (obind x f) (obind y g).
Proof. intros [] [] f g H F; cbn in *; try contradiction; auto. Qed.
Lemma oweq_done : forall x b, oweq x (Done b) -> exists a, x = Done a /\ weq a b.
Proof. intros [] b H; cbn in H; try contradiction; eauto. Qed.
Lemma set_elem_weq : forall i e a b, weq a b -> weq (set_elem i e a) (set_elem i e b).
Proof. intros i e a b (A & B & C & D). repeat split; cbn; auto. intros j. now rewrite B. Qed.
Lemma set_cnt_weq : forall k v a b, weq a b -> weq (set_cnt_of k v a) (set_cnt_of k v b).
Proof. intros k v a b (A & B & C & D). repeat split; cbn; auto. intros j. now rewrite C. Qed.
Lemma set_stack_weq : forall l a b, weq a b -> weq (set_stack l a) (set_stack l b).
Proof. intros l a b (A & B & C & D). repeat split; cbn; auto. Qed.
Lemma attach_weq : forall c a b, weq a b -> oweq (attach c a) (attach c b).
Proof. intros [k|] a b H; cbn [attach]; [|exact H]. pose proof H as (_ & _ & C & _). rewrite C. destruct (0 <? w_cnt b k); cbn; [now apply set_cnt_weq|exact I]. Qed.
Lemma detach_weq : forall c a b, weq a b -> oweq (detach c a) (detach c b).
Proof. intros [k|] a b H; cbn [detach]; [|exact H]. pose proof H as (_ & _ & C & _). rewrite C. destruct (0 <? w_cnt b k); cbn; [now apply set_cnt_weq|exact I]. Qed.
Lemma set_value_weq : forall i v c a b, weq a b -> oweq (set_value i v c a) (set_value i v c b).
Proof.
  intros i v c a b H. unfold set_value. pose proof H as (A & B & _). rewrite A, B. destruct (w_live b i); [|exact I]. cbv zeta.
  apply oweq_bind; [|intros x y E; cbn; now apply set_elem_weq]. destruct (same_ptr c (e_common (w_elem b i))); [exact H|].
  apply oweq_bind; [now apply detach_weq|]. intros; now apply attach_weq.
Qed.
Lemma set_value_par_weq : forall i v t a b, weq a b -> oweq (set_value_par i v t a) (set_value_par i v t b).
Proof. intros i v t a b H. unfold set_value_par. pose proof H as (A & B & _). rewrite A, B. destruct (w_live b i); [|exact I]. cbn. now apply set_elem_weq. Qed.
Lemma restore_weq : forall st a b, weq a b -> oweq (restore st a) (restore st b).
Proof. intros st a b H. unfold restore. apply oweq_bind; [now apply set_value_weq|]. intros; now apply set_value_par_weq. Qed.
Lemma unfault_loop_weq : forall l a b, weq a b -> oweq (unfault_loop l a) (unfault_loop l b).
Proof.
  induction l as [|st l IH]; intros a b H; cbn [unfault_loop]; [exact H|].
  apply oweq_bind; [now apply restore_weq|]. intros x y E. apply oweq_bind; [now apply detach_weq|]. intros x' y' E'. apply IH. now apply set_stack_weq.
Qed.
Lemma unfault_weq : forall a b, weq a b -> oweq (unfault a) (unfault b).
Proof. intros a b H. unfold unfault. replace (w_stack b) with (w_stack a) by apply H. now apply unfault_loop_weq. Qed.
Lemma push_stash_weq : forall i a b, weq a b -> oweq (push_stash i a) (push_stash i b).
Proof.
  intros i a b H. unfold push_stash, make_stash. pose proof H as (A & B & _). rewrite A, B. destruct (w_live b i); [|exact I].
  assert (H1 := attach_weq (e_common (w_elem b i)) a b H).
  destruct (attach (e_common (w_elem b i)) a) as [a1| | |], (attach (e_common (w_elem b i)) b) as [b1| | |]; cbn in H1; try contradiction; try exact I. cbn [obind s_elem].
  apply oweq_bind; [now apply attach_weq|]. intros x y E. apply oweq_bind; [now apply detach_weq|]. intros x' y' E'. cbn.
  replace (w_stack y') with (w_stack x') by apply E'. now apply set_stack_weq.
Qed.
Lemma faultbranch_weq : forall c v a b, weq a b -> oweq (faultbranch c v a) (faultbranch c v b).
Proof.
  intros c v a b H. unfold faultbranch. destruct (kind c); [exact H| |]; destruct (sub c); try exact H; try exact I.
  apply oweq_bind; [now apply push_stash_weq|]. intros; now apply set_value_weq.
Qed.
Lemma modifybranch_weq : forall c v a b, weq a b -> oweq (modifybranch c v a) (modifybranch c v b).
Proof. intros c v a b H. unfold modifybranch. destruct (kind c); try exact I. now apply set_value_weq. Qed.

(* the common c can be used *)
Definition usable (c : option Z) (w : world) : Prop := match c with None => True | Some k => 0 < w_cnt w k end.
Lemma eqb_same : forall x : Z, (x =? x) = true.
Proof. apply Z.eqb_refl. Qed.
Definition faulted (i : Z) (v : Q) (w : world) : world :=
  set_elem i (Elem v HASH None) (set_stack (Stash i (w_elem w i) :: w_stack w) w).
(* what fault does to one element *)
Lemma fault_shape : forall l i v w, w_live w i = true -> usable (e_common (w_elem w i)) w ->
  oweq (faultbranch (Card l i Element None) v w) (Done (faulted i v w)).
Proof.
  intros l i v w L U. unfold faultbranch, push_stash, make_stash, faulted. cbn [kind sub ident]. rewrite L.
  destruct (e_common (w_elem w i)) as [k|] eqn:E; cbn [usable] in U.
  - cbn [attach]. destruct (0 <? w_cnt w k) eqn:P; [|lia]. cbn [obind s_elem attach detach]. rewrite E. cbn [attach set_cnt_of w_cnt]. rewrite !eqb_same.
    destruct (0 <? w_cnt w k + 1) eqn:P1; [|lia]. cbn [obind detach set_cnt_of w_cnt]. rewrite !eqb_same.
    destruct (0 <? w_cnt w k + 1 + 1) eqn:P2; [|lia]. cbn [obind]. unfold set_value. cbn [set_stack set_cnt_of w_live w_elem w_cnt w_stack]. rewrite L, E. cbn [same_ptr].
    cbn [obind detach attach set_cnt_of set_stack w_cnt w_live w_elem w_stack]. rewrite !eqb_same.
    destruct (0 <? w_cnt w k + 1 + 1 - 1) eqn:P3; [|lia]. cbn.
    repeat split; cbn. intros j. destruct (Z.eqb_spec j k) as [->|]; lia.
  - cbn [attach obind s_elem]. rewrite E. cbn [attach detach obind]. unfold set_value. cbn [set_stack w_live w_elem]. rewrite L, E. cbn [same_ptr obind].
    cbn. repeat split.
Qed.
Lemma restore_faulted : forall i v w, w_live w i = true -> usable (e_common (w_elem w i)) w ->
  oweq (unfault (faulted i v w)) (unfault w).
Proof.
  intros i v w L U. unfold unfault at 1. cbn [faulted set_elem set_stack w_stack unfault_loop].
  enough (H : oweq (do x <- restore (Stash i (w_elem w i)) (faulted i v w); do y <- detach (e_common (w_elem w i)) x; Done (set_stack (w_stack w) y)) (Done w)).
  { unfold faulted in H. cbn [s_elem] in *. destruct (restore _ _) as [w1| | |]; cbn [obind oweq] in H; try contradiction. cbn [obind].
    destruct (detach (e_common (w_elem w i)) w1) as [w2| | |]; cbn [obind oweq] in H; try contradiction. cbn [obind]. unfold unfault. apply unfault_loop_weq.
    exact H. }
  unfold restore, faulted. cbn [s_brh s_elem]. unfold set_value. cbn [set_elem set_stack w_live w_elem]. rewrite L, eqb_same. cbn [e_common].
  destruct (w_elem w i) as [x t [k|]] eqn:E; cbn [e_val e_text e_common usable] in *; cbn [same_ptr].
  - cbn [obind detach attach set_elem set_stack w_cnt]. destruct (0 <? w_cnt w k) eqn:P; [|lia]. cbn [obind]. unfold set_value_par.
    cbn [set_elem set_stack set_cnt_of w_live w_elem w_cnt]. rewrite L, eqb_same. cbn [obind e_common detach set_elem set_stack set_cnt_of w_live w_elem w_cnt w_stack]. rewrite !eqb_same.
    destruct (0 <? w_cnt w k + 1) eqn:P1; [|lia]. cbn. repeat split; cbn.
    + intros j. destruct (Z.eqb_spec j i) as [->|]; [now rewrite E|reflexivity].
    + intros j. destruct (Z.eqb_spec j k) as [->|]; lia.
  - cbn [obind]. unfold set_value_par. cbn [set_elem set_stack w_live w_elem]. rewrite L, eqb_same. cbn. repeat split; cbn.
    intros j. destruct (Z.eqb_spec j i) as [->|]; [now rewrite E|reflexivity].
Qed.
Lemma fault_inv : forall c v w w', faultbranch c v w = Done w' -> w' = w \/
  (kind c = Element /\ sub c = None /\ w_live w (ident c) = true /\ usable (e_common (w_elem w (ident c))) w).
Proof.
  intros c v w w' H. unfold faultbranch in H. destruct (kind c) eqn:K; [injection H as <-; now left| |]; (destruct (sub c) eqn:S; [injection H as <-; now left|]); [discriminate H|].
  right. split; [reflexivity|]. split; [reflexivity|]. unfold push_stash, make_stash in H. destruct (w_live w (ident c)); [|discriminate H]. split; [reflexivity|].
  destruct (e_common (w_elem w (ident c))) as [k|]; cbn [usable]; [|exact I]. cbn [attach] in H. destruct (0 <? w_cnt w k) eqn:P; [lia|discriminate H].
Qed.
Lemma fault_undone : forall c v w w', faultbranch c v w = Done w' -> oweq (unfault w') (unfault w).
Proof.
  intros c v w w' H. destruct (fault_inv _ _ _ _ H) as [->|(K & S & L & U)]; [apply oweq_refl|].
  destruct c as [l i k s]. cbn [kind sub ident] in *. subst k s. pose proof (fault_shape l i v w L U) as F. rewrite H in F. cbn in F.
  eapply oweq_trans; [apply unfault_weq; exact F|]. now apply restore_faulted.
Qed.

(* changes of elements in turn *)
Inductive change := Faulted (c : card) (v : Q) | Modified (c : card) (v : Q).
Definition apply1 (ch : change) (w : world) : outcome world :=
  match ch with Faulted c v => faultbranch c v w | Modified c v => modifybranch c v w end.
Fixpoint apply (l : list change) (w : world) : outcome world :=
  match l with [] => Done w | ch :: l' => do w <- apply1 ch w; apply l' w end.
Lemma apply_app : forall a b w, apply (a ++ b) w = (do w <- apply a w; apply b w).
Proof. induction a as [|ch a IH]; intros b w; cbn [app apply obind]; [reflexivity|]. destruct (apply1 ch w); cbn [obind]; auto. Qed.
Lemma faults_undone : forall l w w', (forall ch, In ch l -> exists c v, ch = Faulted c v) -> apply l w = Done w' -> oweq (unfault w') (unfault w).
Proof.
  induction l as [|ch l IH]; intros w w' F H; cbn [apply] in H; [injection H as <-; apply oweq_refl|].
  destruct (F ch (or_introl eq_refl)) as (c & v & ->). destruct (apply1 (Faulted c v) w) as [w1| | |] eqn:E; try discriminate H. cbn [obind] in H.
  eapply oweq_trans; [apply IH; [|exact H]|]; [intros; apply F; now right|]. exact (fault_undone _ _ _ _ E).
Qed.

(* counts *)
Definition opt_dec : forall a b : option Z, {a = b} + {a <> b}.
Proof. decide equality. apply Z.eq_dec. Defined.
Arguments opt_dec : simpl never.
Definition held (ids : list Z) (w : world) : list (option Z) :=
  map (fun i => e_common (w_elem w i)) ids ++ map (fun st => e_common (s_elem st)) (w_stack w).
Definition num (k : Z) (l : list (option Z)) : Z := Z.of_nat (count_occ opt_dec l (Some k)).
Definition sane (ids : list Z) (w : world) : Prop :=
  NoDup ids /\ (forall i, In i ids -> w_live w i = true) /\ (forall st, In st (w_stack w) -> In (s_brh st) ids) /\ (forall k, num k (held ids w) <= w_cnt w k).
Lemma num_cons : forall k x l, num k (x :: l) = (if opt_dec x (Some k) then 1 else 0) + num k l.
Proof. intros k x l. unfold num. cbn. destruct (opt_dec x (Some k)); lia. Qed.
Lemma num_app : forall k a b, num k (a ++ b) = num k a + num k b.
Proof. intros k a b. unfold num. rewrite count_occ_app. lia. Qed.
Lemma num_pos : forall k l, 0 <= num k l.
Proof. intros. unfold num. lia. Qed.
Lemma num_in : forall k l, In (Some k) l -> 1 <= num k l.
Proof. intros k l H. unfold num. apply (count_occ_In opt_dec) in H. lia. Qed.
Lemma num_upd : forall k i e w ids, NoDup ids -> In i ids ->
  num k (map (fun j => e_common (w_elem (set_elem i e w) j)) ids) + (if opt_dec (e_common (w_elem w i)) (Some k) then 1 else 0) =
  num k (map (fun j => e_common (w_elem w j)) ids) + (if opt_dec (e_common e) (Some k) then 1 else 0).
Proof.
  intros k i e w ids N H. induction ids as [|j ids IH]; [destruct H|]. inversion N as [|? ? NI N']; subst. cbn [map]. rewrite !num_cons.
  cbn [set_elem w_elem]. destruct H as [->|H].
  - rewrite eqb_same. enough (E : map (fun j => e_common (w_elem (set_elem i e w) j)) ids = map (fun j => e_common (w_elem w j)) ids) by (cbn [set_elem w_elem] in E; rewrite E; lia).
    apply map_ext_in. intros j Hj. cbn. destruct (Z.eqb_spec j i) as [->|]; [contradiction|reflexivity].
  - destruct (Z.eqb_spec j i) as [->|]; [contradiction|]. specialize (IH N' H). cbn [set_elem w_elem] in IH. lia.
Qed.
Lemma sane_weq : forall ids a b, weq a b -> sane ids a -> sane ids b.
Proof.
  intros ids a b (A & B & C & D) (N & L & S & H). split; [exact N|]. split; [intros; rewrite <- A; auto|]. split; [rewrite <- D; exact S|].
  intros k. rewrite <- C. replace (held ids b) with (held ids a); [apply H|]. unfold held. rewrite D. f_equal. apply map_ext. intros; now rewrite B.
Qed.
Lemma sane_usable : forall ids w i, sane ids w -> In i ids -> usable (e_common (w_elem w i)) w.
Proof.
  intros ids w i (N & L & S & H) I. destruct (e_common (w_elem w i)) as [k|] eqn:E; cbn [usable]; [|exact Logic.I].
  specialize (H k). assert (1 <= num k (held ids w)); [|lia]. apply num_in. unfold held. apply in_or_app. left. rewrite <- E. now apply (in_map (fun i => e_common (w_elem w i))).
Qed.
Lemma sane_stash : forall ids w st, sane ids w -> In st (w_stack w) -> usable (e_common (s_elem st)) w.
Proof.
  intros ids w st (N & L & S & H) I. destruct (e_common (s_elem st)) as [k|] eqn:E; cbn [usable]; [|exact Logic.I].
  specialize (H k). assert (1 <= num k (held ids w)); [|lia]. apply num_in. unfold held. apply in_or_app. right. rewrite <- E. now apply (in_map (fun st => e_common (s_elem st))).
Qed.
Lemma dec_none : forall k, (if opt_dec None (Some k) then 1 else 0) = 0.
Proof. intros k. destruct (opt_dec None (Some k)); [discriminate|reflexivity]. Qed.
Lemma dec_same : forall k, (if opt_dec (Some k) (Some k) then 1 else 0) = 1.
Proof. intros k. destruct (opt_dec (Some k) (Some k)); congruence. Qed.
Lemma sane_faulted : forall ids i v w, sane ids w -> In i ids -> sane ids (faulted i v w).
Proof.
  intros ids i v w S I. pose proof S as (N & L & T & H). split; [exact N|]. split; [exact L|]. split.
  - intros st [<-|J]; [exact I|]. now apply T.
  - intros k. specialize (H k). unfold held, faulted in *. cbn [w_stack set_elem set_stack w_cnt map s_elem].
    pose proof (num_upd k i (Elem v HASH None) w ids N I) as U. cbn [e_common] in U. rewrite dec_none in U.
    change (map (fun i0 : Z => e_common (w_elem (set_elem i (Elem v HASH None) (set_stack (Stash i (w_elem w i) :: w_stack w) w)) i0)) ids)
      with (map (fun j => e_common (w_elem (set_elem i (Elem v HASH None) w) j)) ids).
    rewrite num_app in *. rewrite num_cons. lia.
Qed.
(* set_value on a live element of a sane world *)
Definition valued (i : Z) (v : Q) (t : list ascii) (c : option Z) (w w' : world) : Prop :=
  (forall j, w_live w' j = w_live w j) /\ (forall j, w_elem w' j = if j =? i then Elem v t c else w_elem w j) /\ w_stack w' = w_stack w /\
  (forall k, w_cnt w' k = w_cnt w k - (if opt_dec (e_common (w_elem w i)) (Some k) then 1 else 0) + (if opt_dec c (Some k) then 1 else 0)).
Lemma same_ptr_true : forall a b, same_ptr a b = true -> a = b.
Proof. intros [x|] [y|] H; cbn in H; try discriminate; [|reflexivity]. f_equal. lia. Qed.
Lemma same_ptr_false : forall a b, same_ptr a b = false -> a <> b.
Proof. intros [x|] [y|] H; cbn in H; try discriminate; try congruence. intros [=]. lia. Qed.
Lemma set_value_ok : forall i v c w, w_live w i = true -> usable (e_common (w_elem w i)) w ->
  (c = None \/ c = e_common (w_elem w i) \/ usable c w) -> exists w', set_value i v c w = Done w' /\ valued i v HASH c w w'.
Proof.
  intros i v c w L U Uc. unfold set_value. rewrite L. destruct (same_ptr c (e_common (w_elem w i))) eqn:E.
  - apply same_ptr_true in E. cbn [obind]. eexists. split; [reflexivity|]. repeat split; cbn. intros k. rewrite <- E. lia.
  - apply same_ptr_false in E.
    assert (D : exists w1, detach (e_common (w_elem w i)) w = Done w1 /\ (forall j, w_live w1 j = w_live w j) /\ (forall j, w_elem w1 j = w_elem w j) /\ w_stack w1 = w_stack w /\
        (forall k, w_cnt w1 k = w_cnt w k - (if opt_dec (e_common (w_elem w i)) (Some k) then 1 else 0))).
    { destruct (e_common (w_elem w i)) as [k|]; cbn [detach usable] in *.
      - destruct (0 <? w_cnt w k) eqn:P; [|lia]. eexists. split; [reflexivity|]. repeat split; cbn. intros j. destruct (Z.eqb_spec j k) as [->|]; [rewrite dec_same; lia|].
        destruct (opt_dec (Some k) (Some j)); [congruence|lia].
      - eexists. split; [reflexivity|]. repeat split. intros j. rewrite dec_none. lia. }
    destruct D as (w1 & -> & A1 & B1 & S1 & C1). cbn [obind].
    assert (D : exists w2, attach c w1 = Done w2 /\ (forall j, w_live w2 j = w_live w1 j) /\ (forall j, w_elem w2 j = w_elem w1 j) /\ w_stack w2 = w_stack w1 /\
        (forall k, w_cnt w2 k = w_cnt w1 k + (if opt_dec c (Some k) then 1 else 0))).
    { destruct c as [k|]; cbn [attach].
      - assert (P : 0 <? w_cnt w1 k = true).
        { destruct Uc as [Uc|[Uc|Uc]]; [discriminate|congruence|]. cbn [usable] in Uc. rewrite C1. destruct (opt_dec (e_common (w_elem w i)) (Some k)); [congruence|lia]. }
        rewrite P. eexists. split; [reflexivity|]. repeat split; cbn. intros j. destruct (Z.eqb_spec j k) as [->|]; [rewrite dec_same; lia|].
        destruct (opt_dec (Some k) (Some j)); [congruence|lia].
      - eexists. split; [reflexivity|]. repeat split. intros j. rewrite dec_none. lia. }
    destruct D as (w2 & -> & A2 & B2 & S2 & C2). cbn [obind]. eexists. split; [reflexivity|]. repeat split; cbn.
    + intros j. now rewrite A2.
    + intros j. destruct (j =? i); [reflexivity|]. now rewrite B2.
    + now rewrite S2.
    + intros k. rewrite C2, C1. lia.
Qed.
Lemma sane_valued : forall ids i v t c w w', sane ids w -> In i ids -> valued i v t c w w' -> sane ids w'.
Proof.
  intros ids i v t c w w' (N & L & T & H) I (A & B & D & C). split; [exact N|]. split; [intros; rewrite A; auto|]. split; [rewrite D; exact T|].
  intros k. specialize (H k). unfold held in *. rewrite D, C. pose proof (num_upd k i (Elem v t c) w ids N I) as U. cbn [e_common] in U.
  replace (map (fun i0 => e_common (w_elem w' i0)) ids) with (map (fun j => e_common (w_elem (set_elem i (Elem v t c) w) j)) ids).
  - rewrite num_app in *. lia.
  - apply map_ext. intros j. rewrite B. reflexivity.
Qed.
Lemma modify_ok : forall ids l i s v w, sane ids w -> In i ids ->
  exists w', modifybranch (Card l i Element s) v w = Done w' /\ valued i v HASH None w w' /\ sane ids w'.
Proof.
  intros ids l i s v w S I. unfold modifybranch. cbn [kind ident].
  destruct (set_value_ok i v None w) as (w' & E & V); [now apply S|now apply sane_usable with ids|now left|].
  exists w'. split; [exact E|]. split; [exact V|]. now apply sane_valued with i v HASH None w.
Qed.
Lemma fault_ok : forall ids l i v w, sane ids w -> In i ids ->
  exists w', faultbranch (Card l i Element None) v w = Done w' /\ weq w' (faulted i v w) /\ sane ids w'.
Proof.
  intros ids l i v w S I. assert (L : w_live w i = true) by now apply S.
  destruct (oweq_done _ _ (fault_shape l i v w L (sane_usable _ _ _ S I))) as (w' & E & W). exists w'. split; [exact E|]. split; [exact W|].
  apply sane_weq with (faulted i v w); [now apply weq_sym|]. now apply sane_faulted.
Qed.
(* unfault never fails in a sane world; the element gets what its oldest stash has *)
Fixpoint oldest (i : Z) (l : list stash) (e : elem) : elem :=
  match l with [] => e | st :: l' => oldest i l' (if s_brh st =? i then s_elem st else e) end.
Lemma unfault_ok : forall ids l w, sane ids w -> w_stack w = l ->
  exists w', unfault_loop l w = Done w' /\ sane ids w' /\ w_stack w' = [] /\ (forall i, w_live w' i = w_live w i) /\
    (forall i, w_elem w' i = oldest i l (w_elem w i)) /\
    (forall k, w_cnt w' k - num k (held ids w') = w_cnt w k - num k (held ids w)).
Proof.
  intros ids l. induction l as [|st l IH]; intros w S E; cbn [unfault_loop oldest].
  { exists w. split; [reflexivity|]. split; [exact S|]. repeat split; auto. }
  assert (I : In (s_brh st) ids) by (apply S; rewrite E; now left).
  assert (Us : usable (e_common (s_elem st)) w) by (apply sane_stash with ids; [exact S|rewrite E; now left]).
  destruct st as [i [x t c]]. cbn [s_brh s_elem e_val e_text e_common] in *. unfold restore. cbn [s_brh s_elem e_val e_text e_common].
  destruct (set_value_ok i x c w) as (w1 & E1 & V1); [now apply S|now apply sane_usable with ids|now right; right|]. rewrite E1. cbn [obind].
  pose proof V1 as (A1 & B1 & D1 & C1). unfold set_value_par. rewrite A1. replace (w_live w i) with true by (symmetry; now apply S). cbn [obind].
  rewrite B1, eqb_same. cbn [e_common].
  set (w2 := set_elem i (Elem x t c) w1).
  assert (V2 : valued i x t c w w2).
  { repeat split; auto. intros j. cbn. rewrite B1. now destruct (j =? i). }
  assert (S2 : sane ids w2) by now apply sane_valued with i x t c w.
  assert (Dt : exists w3, detach c w2 = Done w3 /\ (forall j, w_live w3 j = w_live w2 j) /\ (forall j, w_elem w3 j = w_elem w2 j) /\ w_stack w3 = w_stack w2 /\
      (forall k, w_cnt w3 k = w_cnt w2 k - (if opt_dec c (Some k) then 1 else 0))).
  { assert (U2 : usable c w2). { pose proof (sane_usable ids w2 i S2 I) as U. cbn [w2 set_elem w_elem] in U. rewrite eqb_same in U. exact U. }
    destruct c as [k|]; cbn [detach usable] in *.
    - destruct (0 <? w_cnt w2 k) eqn:P; [|lia]. eexists. split; [reflexivity|]. repeat split; cbn. intros j. destruct (Z.eqb_spec j k) as [->|]; [rewrite dec_same; lia|].
      destruct (opt_dec (Some k) (Some j)); [congruence|lia].
    - eexists. split; [reflexivity|]. repeat split. intros j. rewrite dec_none. lia. }
  destruct Dt as (w3 & -> & A3 & B3 & D3 & C3). cbn [obind].
  set (w4 := set_stack l w3).
  assert (Hh : forall k, num k (held ids w4) = num k (held ids w2) - (if opt_dec c (Some k) then 1 else 0)).
  { intros k. unfold held. cbn [w4 set_stack w_stack w_elem]. replace (w_stack w2) with (Stash i (Elem x t c) :: l) by (symmetry; cbn; rewrite D1; exact E).
    cbn [map s_elem e_common]. rewrite !num_app, num_cons. replace (map (fun i0 => e_common (w_elem w3 i0)) ids) with (map (fun i0 => e_common (w_elem w2 i0)) ids); [lia|].
    apply map_ext. intros j. now rewrite B3. }
  assert (H2 : forall k, w_cnt w2 k - num k (held ids w2) = w_cnt w k - num k (held ids w)).
  { intros k. unfold held. pose proof (num_upd k i (Elem x t c) w ids (proj1 S) I) as U. cbn [e_common] in U. destruct V2 as (_ & B2 & D2 & C2). rewrite C2, D2.
    replace (map (fun i0 => e_common (w_elem w2 i0)) ids) with (map (fun j => e_common (w_elem (set_elem i (Elem x t c) w) j)) ids); [rewrite !num_app; lia|].
    apply map_ext. intros j. rewrite B2. reflexivity. }
  assert (S4 : sane ids w4).
  { destruct S2 as (N2 & L2 & T2 & K2). split; [exact N2|]. split; [intros j J; cbn; rewrite A3; auto|]. split.
    - intros st J. apply S. rewrite E. now right.
    - intros k. rewrite Hh. cbn. rewrite C3. specialize (K2 k). lia. }
  destruct (IH w4 S4 eq_refl) as (w' & E' & S' & K' & L' & B' & C').
  exists w'. split; [exact E'|]. split; [exact S'|]. split; [exact K'|]. split; [|split].
  - intros j. rewrite L'. transitivity (w_live w3 j); [reflexivity|]. rewrite A3. transitivity (w_live w1 j); [reflexivity|apply A1].
  - intros j. rewrite B'. replace (w_elem w4 j) with (if i =? j then Elem x t c else w_elem w j); [reflexivity|].
    transitivity (w_elem w3 j); [|reflexivity]. rewrite B3, (Z.eqb_sym i j). symmetry. apply V2.
  - intros k. rewrite C', Hh, <- H2. change (w_cnt w4 k) with (w_cnt w3 k). rewrite C3. lia.
Qed.

(* a run of changes of known elements *)
Definition known (ids : list Z) (ch : change) : Prop :=
  match ch with
  | Faulted c _ => kind c = Element /\ sub c = None /\ In (ident c) ids
  | Modified c _ => kind c = Element /\ In (ident c) ids
  end.
Definition target (ch : change) : Z := match ch with Faulted c _ => ident c | Modified c _ => ident c end.
Definition given (ch : change) : Q := match ch with Faulted _ v => v | Modified _ v => v end.
(* what the element is now, and what it is once the faults are undone *)
Fixpoint now (i : Z) (l : list change) (e : elem) : elem :=
  match l with [] => e | ch :: l' => now i l' (if target ch =? i then Elem (given ch) HASH None else e) end.
Fixpoint settled (i : Z) (l : list change) (e : elem) : elem :=
  match l with
  | [] => e
  | Faulted c _ :: l' => if ident c =? i then e else settled i l' e
  | Modified c v :: l' => settled i l' (if ident c =? i then Elem v HASH None else e)
  end.
Lemma oldest_ext : forall i l e e', (exists st, In st l /\ s_brh st = i) -> oldest i l e = oldest i l e'.
Proof.
  intros i l. induction l as [|st l IH]; intros e e' (x & I & E); [destruct I|]. cbn [oldest]. destruct (Z.eqb_spec (s_brh st) i); [reflexivity|].
  apply IH. destruct I as [->|I]; [contradiction|]. eauto.
Qed.
Lemma oldest_none : forall i l e, (forall st, In st l -> s_brh st <> i) -> oldest i l e = e.
Proof.
  intros i l. induction l as [|st l IH]; intros e H; [reflexivity|]. cbn [oldest]. destruct (Z.eqb_spec (s_brh st) i) as [E|]; [now elim (H st (or_introl eq_refl))|].
  apply IH. intros; apply H; now right.
Qed.
Lemma run_ok : forall ids l w, sane ids w -> (forall ch, In ch l -> known ids ch) ->
  exists w', apply l w = Done w' /\ sane ids w' /\ (forall i, w_live w' i = w_live w i) /\ (forall i, w_elem w' i = now i l (w_elem w i)) /\
   (forall i, oldest i (w_stack w') (w_elem w' i) = if existsb (fun st => s_brh st =? i) (w_stack w) then oldest i (w_stack w) (w_elem w i) else settled i l (w_elem w i)) /\
   (forall k, w_cnt w' k - num k (held ids w') = w_cnt w k - num k (held ids w)).
Proof.
  intros ids l. induction l as [|ch l IH]; intros w S H; cbn [apply now].
  { exists w. split; [reflexivity|]. split; [exact S|]. split; [reflexivity|]. split; [reflexivity|]. split; [|reflexivity]. intros i. cbn [settled].
    destruct (existsb _ _) eqn:X; [reflexivity|]. apply oldest_none. intros st I E. assert (existsb (fun st => s_brh st =? i) (w_stack w) = true); [|congruence].
    apply existsb_exists. exists st. split; [exact I|lia]. }
  pose proof (H ch (or_introl eq_refl)) as K.
  destruct ch as [[lb j k s] v|[lb j k s] v]; cbn [known kind sub ident target given apply1 settled] in *.
  - destruct K as (-> & -> & I). destruct (fault_ok ids lb j v w S I) as (w1 & E1 & W1 & S1). rewrite E1. cbn [obind].
    destruct (IH w1 S1) as (w' & E' & S' & L' & B' & O' & C'); [intros; apply H; now right|].
    destruct W1 as (WA & WB & WC & WD). exists w'. split; [exact E'|]. split; [exact S'|]. split; [intros i; rewrite L', WA; reflexivity|]. split; [|split].
    + intros i. rewrite B', WB. cbn. now rewrite (Z.eqb_sym j i).
    + intros i. rewrite O', WD, WB. cbn. rewrite (Z.eqb_sym j i). destruct (Z.eqb_spec i j) as [->|NE]; cbn [orb].
      * destruct (existsb _ _) eqn:X; [reflexivity|]. apply oldest_none. intros st J E.
        assert (existsb (fun st => s_brh st =? j) (w_stack w) = true); [|congruence]. apply existsb_exists. exists st. split; [exact J|lia].
      * reflexivity.
    + intros q. rewrite C', WC. replace (num q (held ids w1)) with (num q (held ids w)); [reflexivity|]. unfold held. rewrite WD.
      pose proof (num_upd q j (Elem v HASH None) w ids (proj1 S) I) as U. cbn [e_common] in U. rewrite dec_none in U.
      replace (map (fun i0 => e_common (w_elem w1 i0)) ids) with (map (fun i => e_common (w_elem (set_elem j (Elem v HASH None) w) i)) ids) by (apply map_ext; intros; rewrite WB; reflexivity).
      cbn [faulted set_elem set_stack w_stack map s_elem]. rewrite !num_app, num_cons. cbn [set_elem] in U. lia.
  - destruct K as (-> & I). destruct (modify_ok ids lb j s v w S I) as (w1 & E1 & V1 & S1). rewrite E1. cbn [obind].
    destruct (IH w1 S1) as (w' & E' & S' & L' & B' & O' & C'); [intros; apply H; now right|].
    destruct V1 as (WA & WB & WD & WC). exists w'. split; [exact E'|]. split; [exact S'|]. split; [intros i; rewrite L', WA; reflexivity|]. split; [|split].
    + intros i. rewrite B', WB. now rewrite (Z.eqb_sym j i).
    + intros i. rewrite O', WD, WB. rewrite (Z.eqb_sym j i). destruct (existsb _ _) eqn:X; [|reflexivity].
      apply oldest_ext. apply existsb_exists in X. destruct X as (st & J & E). exists st. split; [exact J|lia].
    + intros q. rewrite C', WC. unfold held. rewrite WD. pose proof (num_upd q j (Elem v HASH None) w ids (proj1 S) I) as U. cbn [e_common] in U.
      replace (map (fun i0 => e_common (w_elem w1 i0)) ids) with (map (fun i => e_common (w_elem (set_elem j (Elem v HASH None) w) i)) ids) by (apply map_ext; intros; rewrite WB; reflexivity).
      rewrite !num_app. lia.
Qed.
