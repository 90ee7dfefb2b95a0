(* C10, C11, C57: numbering of nodes, flattening of subcircuits, headers of subcircuits *)
Require Import ZArith List Bool Lia Ascii String FinFun.
Require Import ZifyBool.
Require Import Verif.Loops Verif.Wmatch_Model Verif.CS_Model Verif.AMap Verif.Nodemap_Model Verif.P_Nodemap Verif.Expand_Model.
Import ListNotations.
Local Open Scope Z_scope.

(* ---------------- C10 ---------------- *)
Lemma for_up_total : forall S lo hi (body : Z -> S -> option S) s, lo <= hi ->
  (forall j t, lo <= j < hi -> exists t', body j t = Some t') -> exists s', for_up lo hi body s = Some s'.
Proof.
  intros S lo hi body s H B. destruct (for_up_ind S (fun _ _ => True) body lo hi s H I) as (s' & E & _).
  - intros j t Hj _. destruct (B j t Hj) as (t' & Et). exists t'. split; [exact Et|exact I].
  - now exists s'.
Qed.

Lemma order_ok : forall o total, 0 <= total -> exists nm, map__nodes o total = Some nm /\ nm 0 = 0 /\
  forall i, 1 <= i <= total -> nm i = match o with oFORWARD => i | _ => total - i + 1 end.
Proof.
  assert (G : forall (f : Z -> Z) total, 0 <= total ->
    exists nm, for_up 1 (total + 1) (fun node nm => Some (upd nm node (f node))) (upd (fun _ => 0) 0 0) = Some nm /\ nm 0 = 0 /\
    forall i, 1 <= i <= total -> nm i = f i).
  { intros f total Ht.
    destruct (for_up_ind (Z -> Z) (fun k nm => nm 0 = 0 /\ forall i, 1 <= i < k -> nm i = f i)
       (fun node nm => Some (upd nm node (f node))) 1 (total + 1) (upd (fun _ => 0) 0 0)) as (nm & E & H0 & H).
    - lia.
    - split; [reflexivity|]. intros; lia.
    - intros j t Hj [T0 T]. eexists. split; [reflexivity|]. split.
      + rewrite upd_other by lia. exact T0.
      + intros i Hi. destruct (Z.eq_dec i j) as [->|N]; [now rewrite upd_same|]. rewrite upd_other by assumption. apply T. lia.
    - exists nm. split; [exact E|]. split; [exact H0|]. intros i Hi. apply H. lia. }
  intros o total Ht. destruct o; cbn [map__nodes].
  - apply (G (fun node => total - node + 1) total Ht).
  - apply (G (fun node => node) total Ht).
  - apply (G (fun node => total - node + 1) total Ht).
Qed.

(* Whatever the ordering option, the numbering leaves ground at 0, is one-to-one and onto 0..total,
   and the user number recorded at each internal place is the node that was given that place. *)
Theorem C10_permutation : forall o total, 0 <= total -> exists nm st,
  map__nodes o total = Some nm /\ nstat_numbers total nm = Some st /\
  nm 0 = 0 /\
  (forall i, 1 <= i <= total -> 1 <= nm i <= total) /\
  (forall i j, 0 <= i <= total -> 0 <= j <= total -> nm i = nm j -> i = j) /\
  (forall k, 0 <= k <= total -> exists i, 0 <= i <= total /\ nm i = k) /\
  (forall i, 0 <= i <= total -> st (nm i) = i) /\
  (forall k, 0 <= k <= total -> 0 <= st k <= total /\ nm (st k) = k).
Proof.
  intros o total Ht. destruct (order_ok o total Ht) as (nm & E & N0 & N). exists nm.
  assert (R : forall i, 0 <= i <= total -> 0 <= nm i <= total).
  { intros i Hi. destruct (Z.eq_dec i 0) as [->|Ni]; [rewrite N0; lia|]. rewrite N by lia. destruct o; lia. }
  assert (Inj : forall i j, 0 <= i <= total -> 0 <= j <= total -> nm i = nm j -> i = j).
  { intros i j Hi Hj Eq. destruct (Z.eq_dec i 0) as [->|Ni]; destruct (Z.eq_dec j 0) as [->|Nj]; [reflexivity|..].
    - rewrite N0, N in Eq by lia. destruct o; lia.
    - rewrite N0, N in Eq by lia. destruct o; lia.
    - rewrite !N in Eq by lia. destruct o; lia. }
  assert (Sur : forall k, 0 <= k <= total -> exists i, 0 <= i <= total /\ nm i = k).
  { intros k Hk. destruct (Z.eq_dec k 0) as [->|Nk]; [exists 0; split; [lia|exact N0]|].
    exists (match o with oFORWARD => k | _ => total - k + 1 end).
    split; [destruct o; lia|]. rewrite N by (destruct o; lia). destruct o; lia. }
  destruct (for_up_ind (Z -> Z) (fun k st => forall i, 0 <= i < k -> st (nm i) = i)
    (fun ii st => if (0 <=? nm ii) && (nm ii <=? total) then Some (upd st (nm ii) ii) else None) 0 (total + 1) (fun _ => INVALID_NODE))
    as (st & Es & Hs).
  - lia.
  - intros; lia.
  - intros j t Hj T. pose proof (R j ltac:(lia)). replace ((0 <=? nm j) && (nm j <=? total))%bool with true by lia.
    eexists. split; [reflexivity|]. intros i Hi. destruct (Z.eq_dec i j) as [->|Nij]; [now rewrite upd_same|].
    rewrite upd_other; [apply T; lia|]. intros Q. apply Nij. apply Inj; lia.
  - exists st. split; [exact E|]. split; [exact Es|]. split; [exact N0|].
    split; [intros i Hi; rewrite N by lia; destruct o; lia|]. split; [exact Inj|]. split; [exact Sur|].
    split; [intros i Hi; apply Hs; lia|].
    intros k Hk. destruct (Sur k Hk) as (i & Hi & <-). rewrite Hs by lia. split; [lia|reflexivity].
Qed.
Print Assumptions C10_permutation.

Example order_of_three : match map__nodes oREVERSE 3 with Some nm => map nm [0; 1; 2; 3] = [0; 3; 2; 1] /\
  match nstat_numbers 3 nm with Some st => map st [0; 1; 2; 3] = [0; 3; 2; 1] | None => False end | None => False end.
Proof. vm_compute. split; reflexivity. Qed.

(* ---------------- C11 ---------------- *)
(* What the hierarchy means, without any numbering.  A net is ground, the node with local number i of
   the instance at some place of the hierarchy (the place is the list of positions, innermost first),
   or the node made by the device at some place. *)
Inductive net := Ground | Local (p : list nat) (i : Z) | Branch (p : list nat).
Inductive hcard := HCard (what : kind) (nets : list (option net)) (own : list net) (sub : list hcard).

Fixpoint position (e : Z) (l : list Z) : option nat :=
  match l with [] => None | x :: l' => if x =? e then Some O else option_map S (position e l') end.
(* inside the instance at place p, of a prototype with these formal ports, connected to these nets *)
Definition inside (p : list nat) (ports : list Z) (actual : list (option net)) (e : Z) : option net :=
  match position e ports with
  | Some j => nth j actual None
  | None => if e =? 0 then Some Ground else Some (Local p e)
  end.
Definition at_top (e : Z) : option net := if e =? -1 then None else if e =? 0 then Some Ground else Some (Local [] e).
Definition connect (scope : Z -> option net) (d : cdef) : kind * list (option net) :=
  (ckind d, match ckind d with ModelCard => [] | _ => map scope (cnodes d) end).
Fixpoint zrange (n : nat) (i : Z) : list Z := match n with O => [] | S n' => i :: zrange n' (i + 1) end.
Definition internal_numbers (p : proto) : list Z :=
  let np := Z.of_nat (List.length (pports p)) in zrange (Z.to_nat (phow p - np)) (np + 1).

Section MEANING.
  Variable protos : list proto.
  (* the hierarchy, with the net of every connection *)
  Fixpoint elaborate (fuel : nat) (place : list nat) (cards : list (kind * list (option net))) : list hcard :=
    match fuel with
    | O => []
    | S fuel' =>
      (fix go (j : nat) (cards : list (kind * list (option net))) : list hcard :=
        match cards with
        | [] => []
        | (k, ns) :: rest =>
          match k with
          | Plain | ModelCard => HCard k ns [] []
          | Coil => HCard k ns [Branch (j :: place)] []
          | Inst i =>
            match nth_error protos i with
            | None => HCard k ns [] []
            | Some p => HCard k ns [] (elaborate fuel' (j :: place) (map (connect (inside (j :: place) (pports p) ns)) (pcards p)))
            end
          end :: go (S j) rest
        end) O cards
    end.
  (* the nets that exist only inside it *)
  Fixpoint made (fuel : nat) (place : list nat) (cards : list (kind * list (option net))) : list net :=
    match fuel with
    | O => []
    | S fuel' =>
      (fix go (j : nat) (cards : list (kind * list (option net))) : list net :=
        match cards with
        | [] => []
        | (k, ns) :: rest =>
          match k with
          | Plain | ModelCard => []
          | Coil => [Branch (j :: place)]
          | Inst i =>
            match nth_error protos i with
            | None => []
            | Some p => map (Local (j :: place)) (internal_numbers p) ++
                        made fuel' (j :: place) (map (connect (inside (j :: place) (pports p) ns)) (pcards p))
            end
          end ++ go (S j) rest
        end) O cards
    end.
End MEANING.

(* the numbered circuit that a numbering of the nets gives *)
Definition onum (num : net -> Z) (n : option net) : Z := match n with None => -1 | Some n => num n end.
Fixpoint render (num : net -> Z) (h : hcard) : ecard :=
  match h with HCard k ns own sub => ECard k (map (onum num) ns) (map num own) (map (render num) sub) end.

Definition ports_in_order (p : proto) : Prop := pports p = zrange (List.length (pports p)) 1.

(* ---- proofs ---- *)
Lemma obind_done : forall A B (x : out A) (f : A -> out B) b, obind x f = Done b -> exists a, x = Done a /\ f a = Done b.
Proof. intros A B [a| |] f b H; cbn in H; try discriminate. now exists a. Qed.

Lemma zrange_len : forall n i, List.length (zrange n i) = n.
Proof. induction n; intros; cbn; [reflexivity|]. now rewrite IHn. Qed.
Lemma zrange_nth : forall n i k, (k < n)%nat -> nth_error (zrange n i) k = Some (i + Z.of_nat k).
Proof.
  induction n as [|n IH]; intros i k H; [lia|]. destruct k as [|k]; cbn [zrange nth_error]; [f_equal; lia|].
  rewrite IH by lia. f_equal. lia.
Qed.
Lemma zrange_In : forall n i x, In x (zrange n i) <-> i <= x < i + Z.of_nat n.
Proof. induction n as [|n IH]; intros i x; cbn [zrange In]; [lia|]. rewrite IH. lia. Qed.
Lemma zrange_NoDup : forall n i, NoDup (zrange n i).
Proof. induction n as [|n IH]; intros i; cbn; constructor; [rewrite zrange_In; lia|apply IH]. Qed.
Lemma position_zrange : forall n i e, position e (zrange n i) = if (i <=? e) && (e <? i + Z.of_nat n) then Some (Z.to_nat (e - i)) else None.
Proof.
  induction n as [|n IH]; intros i e; cbn [zrange position].
  - replace ((i <=? e) && (e <? i + Z.of_nat 0))%bool with false by lia. reflexivity.
  - destruct (Z.eqb_spec i e) as [->|N].
    + replace ((e <=? e) && (e <? e + Z.of_nat (S n)))%bool with true by lia. f_equal. lia.
    + rewrite IH. destruct ((i + 1 <=? e) && (e <? i + 1 + Z.of_nat n))%bool eqn:B.
      * replace ((i <=? e) && (e <? i + Z.of_nat (S n)))%bool with true by lia. cbn [option_map]. f_equal. lia.
      * replace ((i <=? e) && (e <? i + Z.of_nat (S n)))%bool with false by lia. reflexivity.
Qed.

Lemma fill_ports_ok : forall n i ts m m', fill_ports n i ts m = Done m' ->
  forall e, m' e = if (i <=? e) && (e <? i + Z.of_nat n) then nth (Z.to_nat (e - 1)) ts (-1) else m e.
Proof.
  induction n as [|n IH]; intros i ts m m' H e; cbn [fill_ports] in H.
  - inversion H; subst. replace ((i <=? e) && (e <? i + Z.of_nat 0))%bool with false by lia. reflexivity.
  - apply obind_done in H. destruct H as (t & Et & H). rewrite (IH _ _ _ _ H e).
    unfold inst_node in Et. destruct ((0 <=? i - 1) && (i - 1 <? PORTS_PER_SUBCKT))%bool; [|discriminate]. injection Et as Et.
    destruct (Z.eq_dec e i) as [->|N].
    + replace ((i + 1 <=? i) && (i <? i + 1 + Z.of_nat n))%bool with false by lia. rewrite upd_same.
      replace ((i <=? i) && (i <? i + Z.of_nat (S n)))%bool with true by lia. now rewrite <- Et.
    + rewrite upd_other by assumption.
      replace ((i + 1 <=? e) && (e <? i + 1 + Z.of_nat n))%bool with ((i <=? e) && (e <? i + Z.of_nat (S n)))%bool by lia. reflexivity.
Qed.
Lemma fill_internal_ok : forall n i m c m' c', fill_internal n i m c = (m', c') ->
  (forall e, m' e = if (i <=? e) && (e <? i + Z.of_nat n) then total_nodes c + (e - i) + 1 else m e) /\
  c' = Counts (user_nodes c) (subckt_nodes c + Z.of_nat n) (model_nodes c) (total_nodes c + Z.of_nat n).
Proof.
  induction n as [|n IH]; intros i m c m' c' H; cbn [fill_internal] in H.
  - inversion H; subst. split.
    + intros e. replace ((i <=? e) && (e <? i + Z.of_nat 0))%bool with false by lia. reflexivity.
    + destruct c' as [u s o t]. cbn. f_equal; lia.
  - cbn [newnode_subckt] in H. apply IH in H. destruct H as [H ->]. cbn [user_nodes subckt_nodes model_nodes total_nodes] in *. split.
    + intros e. rewrite H. destruct (Z.eq_dec e i) as [->|N].
      * replace ((i + 1 <=? i) && (i <? i + 1 + Z.of_nat n))%bool with false by lia. rewrite upd_same.
        replace ((i <=? i) && (i <? i + Z.of_nat (S n)))%bool with true by lia. lia.
      * rewrite upd_other by assumption.
        replace ((i + 1 <=? e) && (e <? i + 1 + Z.of_nat n))%bool with ((i <=? e) && (e <? i + Z.of_nat (S n)))%bool by lia.
        destruct ((i <=? e) && (e <? i + Z.of_nat (S n)))%bool; lia.
    + f_equal; lia.
Qed.
Lemma mapM_done : forall A B (f : A -> out B) l r, mapM f l = Done r -> Forall2 (fun a b => f a = Done b) l r.
Proof.
  induction l as [|a l IH]; intros r H; cbn in H; [injection H as <-; constructor|].
  apply obind_done in H. destruct H as (b & Eb & H). apply obind_done in H. destruct H as (bs & Ebs & H). injection H as <-.
  constructor; [exact Eb|]. now apply IH.
Qed.
Lemma Forall2_map_eq : forall A B (P : A -> B -> Prop) (g : A -> B) l r, Forall2 P l r -> (forall a b, In a l -> P a b -> b = g a) -> r = map g l.
Proof.
  intros A B P g l r H. induction H as [|a b l r Hab H IH]; intros G; [reflexivity|]. cbn. f_equal.
  - apply G; [now left|exact Hab].
  - apply IH. intros x y Hx. apply G. now right.
Qed.

Definition rcard (num : net -> Z) (c : kind * list (option net)) : kind * list Z := (fst c, map (onum num) (snd c)).

Lemma nth_onum : forall num ns k, nth k (map (onum num) ns) (-1) = onum num (nth k ns None).
Proof. intros. change (-1) with (onum num None). apply map_nth. Qed.

Lemma map_subckt_ok : forall p ns c cards c' num place, ports_in_order p -> num Ground = 0 ->
  (forall k n, nth_error (map (Local place) (internal_numbers p)) k = Some n -> num n = total_nodes c + Z.of_nat k + 1) ->
  map_subckt_nodes p (map (onum num) ns) c = Done (cards, c') ->
  cards = map (rcard num) (map (connect (inside place (pports p) ns)) (pcards p)) /\
  c' = Counts (user_nodes c) (subckt_nodes c + Z.of_nat (List.length (internal_numbers p))) (model_nodes c)
              (total_nodes c + Z.of_nat (List.length (internal_numbers p))).
Proof.
  intros p ns c cards c' num place Hp Hg Hn H. unfold map_subckt_nodes in H.
  set (np := Z.of_nat (List.length (pports p))) in *.
  destruct (np <=? phow p) eqn:B1; cbn [negb] in H; [|discriminate].
  destruct (forallb (fun e => e <=? phow p) (pports p)); cbn [negb] in H; [|discriminate].
  apply obind_done in H. destruct H as (m & Em & H).
  destruct (fill_internal (Z.to_nat (phow p - np)) (np + 1) m c) as [m2 c2] eqn:Ei.
  apply obind_done in H. destruct H as (r & Er & H). injection H as <- <-.
  pose proof (fill_ports_ok _ _ _ _ _ Em) as Hm. destruct (fill_internal_ok _ _ _ _ _ _ Ei) as [Hm2 ->].
  unfold internal_numbers in *. cbv zeta in *. fold np in Hn |- *. rewrite zrange_len in *.
  split; [|reflexivity]. fold np in Hm.
  assert (Pos : forall e, position e (pports p) = if (1 <=? e) && (e <? 1 + np) then Some (Z.to_nat (e - 1)) else None).
  { intros e. unfold np. rewrite <- (position_zrange (List.length (pports p)) 1 e). f_equal. exact Hp. }
  assert (V : forall e, 0 <= e <= phow p -> m2 e = onum num (inside place (pports p) ns e)).
  { intros e He. rewrite Hm2, Hm. unfold inside. rewrite Pos.
    destruct ((np + 1 <=? e) && (e <? np + 1 + Z.of_nat (Z.to_nat (phow p - np))))%bool eqn:C1.
    - replace ((1 <=? e) && (e <? 1 + np))%bool with false by lia. replace (e =? 0) with false by lia. cbn [onum].
      rewrite (Hn (Z.to_nat (e - np - 1)) (Local place e)); [lia|].
      rewrite (map_nth_error (Local place) (Z.to_nat (e - np - 1)) _ (d := e)); [reflexivity|].
      rewrite zrange_nth by lia. f_equal. lia.
    - destruct ((1 <=? e) && (e <? 1 + np))%bool eqn:C2.
      + rewrite nth_onum. reflexivity.
      + replace (e =? 0) with true by lia. cbn [onum]. symmetry. exact Hg. }
  apply mapM_done in Er. rewrite map_map. apply (Forall2_map_eq _ _ _ _ _ _ Er). clear Er.
  intros d [k ts] _ Ed. unfold map_card in Ed. unfold rcard, connect. cbn [fst snd].
  assert (W : forall (k' : kind) (r : kind * list Z), obind (mapM (map_subckt_node (phow p) m2 {| user_nodes := user_nodes c; subckt_nodes := subckt_nodes c + Z.of_nat (Z.to_nat (phow p - np)); model_nodes := model_nodes c; total_nodes := total_nodes c + Z.of_nat (Z.to_nat (phow p - np)) |}) (cnodes d)) (fun ts => Done (k', ts)) = Done r ->
     r = (k', map (onum num) (map (inside place (pports p) ns) (cnodes d)))).
  { intros k' r' E. apply obind_done in E. destruct E as (l & El & E). injection E as <-. f_equal.
    apply mapM_done in El. rewrite map_map. apply (Forall2_map_eq _ _ _ _ _ _ El). intros e t _ Et.
    unfold map_subckt_node in Et. destruct (e =? INVALID_NODE); [discriminate|].
    destruct ((0 <=? e) && (e <=? phow p))%bool eqn:C; [|discriminate].
    destruct (node_is_valid _ _); [|discriminate]. injection Et as <-. apply V. lia. }
  destruct (ckind d); cbn [fst snd map] in *; try (apply W in Ed; exact Ed). now injection Ed as <- <-.
Qed.

Lemma nth_error_app_l : forall A (l r : list A) k x, nth_error l k = Some x -> nth_error (l ++ r) k = Some x.
Proof. intros A l r k x H. rewrite nth_error_app1; [exact H|]. apply nth_error_Some. congruence. Qed.
Lemma nth_error_app_r : forall A (l r : list A) k x, nth_error r k = Some x -> nth_error (l ++ r) (List.length l + k) = Some x.
Proof. intros A l r k x H. rewrite nth_error_app2 by lia. now replace (List.length l + k - List.length l)%nat with k by lia. Qed.

Section PROOF.
  Variable protos : list proto.
  Hypothesis Hports : forall p, In p protos -> ports_in_order p.
  Variable num : net -> Z.
  Hypothesis Hg : num Ground = 0.

  Lemma expand_ok : forall fuel place cards c es c',
    (forall k n, nth_error (made protos fuel place cards) k = Some n -> num n = total_nodes c + Z.of_nat k + 1) ->
    expand protos fuel (map (rcard num) cards) c = Done (es, c') ->
    es = map (render num) (elaborate protos fuel place cards) /\
    total_nodes c' = total_nodes c + Z.of_nat (List.length (made protos fuel place cards)) /\
    user_nodes c' = user_nodes c /\
    (total_nodes c' - subckt_nodes c' - model_nodes c' = total_nodes c - subckt_nodes c - model_nodes c).
  Proof.
    induction fuel as [|fuel IHf]; intros place cards c es c' Hn H; [discriminate|].
    cbn [elaborate made expand] in *. set (j := O) in Hn |- *. clearbody j. revert j c es c' Hn H.
    induction cards as [|[k ns] rest IH]; intros j c es c' Hn H; cbn [map rcard fst snd expand_list] in H.
    - injection H as <- <-. cbn. repeat split; lia.
    - apply obind_done in H. destruct H as ([e c1] & E1 & H). apply obind_done in H. destruct H as ([es2 c2] & E2 & H).
      injection H as <- <-.
      match type of Hn with forall k0 n, nth_error (?a ++ ?b) k0 = _ -> _ => set (A := a) in *; set (B := b) in * end.
      assert (Q : e = render num match k with
          | Plain | ModelCard => HCard k ns [] []
          | Coil => HCard k ns [Branch (j :: place)] []
          | Inst i => match nth_error protos i with
            | None => HCard k ns [] []
            | Some p => HCard k ns [] (elaborate protos fuel (j :: place) (map (connect (inside (j :: place) (pports p) ns)) (pcards p)))
            end end /\ total_nodes c1 = total_nodes c + Z.of_nat (List.length A) /\ user_nodes c1 = user_nodes c /\
            total_nodes c1 - subckt_nodes c1 - model_nodes c1 = total_nodes c - subckt_nodes c - model_nodes c).
      { assert (HA : forall k0 n, nth_error A k0 = Some n -> num n = total_nodes c + Z.of_nat k0 + 1).
        { intros k0 n E. apply Hn. now apply nth_error_app_l. }
        destruct k as [| |i|]; cbn [newnode_model expand_card] in E1.
        - injection E1 as <- <-. subst A. cbn. repeat split; lia.
        - injection E1 as <- <-. subst A. cbn. repeat split; try lia. f_equal. f_equal. rewrite (HA O (Branch (j :: place)) eq_refl). lia.
        - destruct (nth_error protos i) as [p|] eqn:Ep; [|discriminate].
          apply obind_done in E1. destruct E1 as ([sub cs] & Es & E1). apply obind_done in E1. destruct E1 as ([sub2 cs2] & Es2 & E1).
          injection E1 as <- <-. subst A.
          apply (map_subckt_ok p ns c sub cs num (j :: place)) in Es; [|apply Hports; now apply nth_error_In in Ep|exact Hg|].
          2:{ intros k0 n E. apply HA. now apply nth_error_app_l. }
          destruct Es as [-> ->].
          apply (IHf (j :: place)) in Es2.
          2:{ intros k0 n E. cbn [total_nodes]. rewrite (HA (List.length (map (Local (j :: place)) (internal_numbers p)) + k0)%nat n).
              - rewrite map_length. lia.
              - now apply nth_error_app_r. }
          cbn [total_nodes user_nodes subckt_nodes model_nodes] in Es2. destruct Es2 as (-> & T & U & M).
          rewrite app_length, map_length. repeat split; try lia.
        - injection E1 as <- <-. subst A. cbn. repeat split; lia. }
      destruct Q as (-> & T1 & U1 & M1).
      destruct (IH (S j) c1 es2 c2) as (-> & T2 & U2 & M2).
      + intros k0 n E. rewrite (Hn (List.length A + k0)%nat n); [lia|]. now apply nth_error_app_r.
      + exact E2.
      + fold B in T2. rewrite app_length. split; [reflexivity|repeat split; lia].
  Qed.
End PROOF.

(* the nets made are distinct *)
Definition place_of (n : net) : list nat := match n with Ground => [] | Local p _ => p | Branch p => p end.
Lemma made_places : forall protos fuel place cards n, In n (made protos fuel place cards) -> exists q j, place_of n = q ++ j :: place.
Proof.
  induction fuel as [|fuel IHf]; intros place cards n H; [destruct H|]. cbn [made] in H.
  set (j := O) in H. clearbody j. revert j H. induction cards as [|[k ns] rest IH]; intros j H; [destruct H|].
  apply in_app_or in H. destruct H as [H|H]; [|now apply IH in H].
  destruct k as [| |i|]; [destruct H| |..].
  - destruct H as [<-|[]]. now exists [], j.
  - destruct (nth_error protos i) as [p|]; [|destruct H]. apply in_app_or in H. destruct H as [H|H].
    + apply in_map_iff in H. destruct H as (x & <- & _). now exists [], j.
    + apply IHf in H. destruct H as (q & j' & ->). exists (q ++ [j']), j. now rewrite <- app_assoc.
  - destruct H.
Qed.
Lemma NoDup_app3 : forall A (l r : list A), NoDup l -> NoDup r -> (forall x, In x l -> In x r -> False) -> NoDup (l ++ r).
Proof.
  induction l as [|a l IH]; intros r Hl Hr D; [exact Hr|]. inversion Hl as [|? ? Na Hl']; subst. cbn. constructor.
  - intros X. apply in_app_or in X. destruct X as [X|X]; [contradiction|]. apply (D a); [now left|exact X].
  - apply IH; [assumption|assumption|]. intros x Hx. apply D. now right.
Qed.
Lemma tail_eq : forall (q q' : list nat) a b p, q ++ a :: p = q' ++ b :: p -> a = b.
Proof.
  intros q q' a b p H. change (a :: p) with ([a] ++ p) in H. change (b :: p) with ([b] ++ p) in H.
  rewrite !app_assoc in H. apply app_inv_tail in H. apply app_inj_tail in H. tauto.
Qed.
Lemma not_longer : forall (q : list nat) a p, p <> q ++ a :: p.
Proof. intros q a p H. apply (f_equal (@List.length nat)) in H. rewrite app_length in H. cbn in H. lia. Qed.
Lemma made_nodup : forall protos fuel place cards, NoDup (made protos fuel place cards).
Proof.
  induction fuel as [|fuel IHf]; intros place cards; [constructor|]. cbn [made].
  set (j := O). clearbody j. 
  match goal with |- NoDup (?g j cards) => set (go := g) end.
  assert (P : forall cards j n, In n (go j cards) -> exists q j', place_of n = q ++ j' :: place /\ (j <= j')%nat).
  { clear cards j. induction cards as [|[k ns] rest IH]; intros j n H; [destruct H|]. cbn in H.
    apply in_app_or in H. destruct H as [H|H].
    - destruct k as [| |i|]; [destruct H| |..].
      + destruct H as [<-|[]]. exists [], j. split; [reflexivity|lia].
      + destruct (nth_error protos i) as [p|]; [|destruct H]. apply in_app_or in H. destruct H as [H|H].
        * apply in_map_iff in H. destruct H as (x & <- & _). exists [], j. split; [reflexivity|lia].
        * apply made_places in H. destruct H as (q & j' & ->). exists (q ++ [j']), j. split; [now rewrite <- app_assoc|lia].
      + destruct H.
    - apply IH in H. destruct H as (q & j' & E & L). exists q, j'. split; [exact E|lia]. }
  revert j. induction cards as [|[k ns] rest IH]; intros j; [constructor|]. cbn. apply NoDup_app3.
  - destruct k as [| |i|]; [constructor| |..].
    + constructor; [intros []|constructor].
    + destruct (nth_error protos i) as [p|]; [|constructor]. apply NoDup_app3.
      * apply Injective_map_NoDup; [intros x y E; now inversion E|]. apply zrange_NoDup.
      * apply IHf.
      * intros x H1 H2. apply in_map_iff in H1. destruct H1 as (z & <- & _). apply made_places in H2. destruct H2 as (q & j' & E).
        cbn in E. now apply not_longer in E.
    + constructor.
  - apply IH.
  - intros x H1 H2. apply P in H2. destruct H2 as (q & j' & E & L).
    assert (F : exists q', place_of x = q' ++ j :: place).
    { destruct k as [| |i|]; [destruct H1| |..].
      - destruct H1 as [<-|[]]. now exists [].
      - destruct (nth_error protos i) as [p|]; [|destruct H1]. apply in_app_or in H1. destruct H1 as [H1|H1].
        + apply in_map_iff in H1. destruct H1 as (z & <- & _). now exists [].
        + apply made_places in H1. destruct H1 as (q' & j'' & ->). exists (q' ++ [j'']). now rewrite <- app_assoc.
      - destruct H1. }
    destruct F as (q' & F). rewrite E in F. apply tail_eq in F. lia.
Qed.

Definition net_dec : forall a b : net, {a = b} + {a <> b}.
Proof. repeat decide equality. Defined.
Fixpoint index (n : net) (l : list net) : nat := match l with [] => O | x :: l' => if net_dec n x then O else S (index n l') end.
Lemma index_nth : forall l k n, NoDup l -> nth_error l k = Some n -> index n l = k.
Proof.
  induction l as [|x l IH]; intros k n N H; [destruct k; discriminate|]. inversion N as [|? ? Nx N']; subst.
  destruct k as [|k]; cbn in *; [injection H as ->; destruct (net_dec n n); congruence|].
  destruct (net_dec n x) as [->|_]; [exfalso; apply Nx; now apply nth_error_In in H|]. now rewrite (IH k n N' H).
Qed.
Lemma index_In : forall l n, In n l -> nth_error l (index n l) = Some n.
Proof.
  induction l as [|x l IH]; intros n H; [destruct H|]. cbn. destruct (net_dec n x) as [->|N]; [reflexivity|].
  destruct H as [->|H]; [congruence|]. cbn. now apply IH.
Qed.

(* Whatever the hierarchy: if expansion ends without an exception, the circuit obtained is the
   elaborated one under a numbering of the nets that is one-to-one onto 0..total, with ground at 0
   and the nodes of the top level keeping their numbers.  So two connections get the same number
   exactly when they are the same net: ports are joined to what the instance is connected to,
   internal nodes are shared with nothing, and the total grows by the number of nets made. *)
Theorem C11_flattening : forall protos fuel users cards es c,
  (forall p, In p protos -> ports_in_order p) ->
  0 <= users ->
  (forall d e, In d cards -> In e (cnodes d) -> -1 <= e <= users) ->
  expand_top protos fuel users cards = Done (es, c) ->
  let top := map (connect at_top) cards in
  let nets := Ground :: map (Local []) (zrange (Z.to_nat users) 1) ++ made protos fuel [] top in
  exists num : net -> Z,
    es = map (render num) (elaborate protos fuel [] top) /\
    num Ground = 0 /\
    (forall i, 1 <= i <= users -> num (Local [] i) = i) /\
    (forall n, In n nets -> 0 <= num n <= total_nodes c) /\
    (forall n n', In n nets -> In n' nets -> num n = num n' -> n = n') /\
    (forall t, 0 <= t <= total_nodes c -> exists n, In n nets /\ num n = t) /\
    total_nodes c = users + Z.of_nat (List.length (made protos fuel [] top)) /\
    total_nodes c = user_nodes c + subckt_nodes c + model_nodes c /\ user_nodes c = users.
Proof.
  intros protos fuel users cards es c Hp Hu He H top nets.
  set (l := map (Local []) (zrange (Z.to_nat users) 1) ++ made protos fuel [] top) in *.
  assert (Ll : List.length (map (Local []) (zrange (Z.to_nat users) 1)) = Z.to_nat users) by now rewrite map_length, zrange_len.
  assert (N : NoDup l).
  { apply NoDup_app3.
    - apply Injective_map_NoDup; [intros x y E; now inversion E|]. apply zrange_NoDup.
    - apply made_nodup.
    - intros x H1 H2. apply in_map_iff in H1. destruct H1 as (z & <- & _). apply made_places in H2. destruct H2 as (q & j & E).
      cbn in E. now destruct q. }
  assert (NG : ~ In Ground l).
  { intros X. unfold l in X. apply in_app_or in X. destruct X as [X|X].
    - apply in_map_iff in X. destruct X as (z & E & _). discriminate.
    - apply made_places in X. destruct X as (q & j & E). cbn in E. now destruct q. }
  set (num := fun n => match n with Ground => 0 | _ => Z.of_nat (index n l) + 1 end).
  assert (Nl : forall k n, nth_error l k = Some n -> num n = Z.of_nat k + 1).
  { intros k n E. pose proof (index_nth l k n N E) as Ix. unfold num. destruct n; [|now rewrite Ix..].
    exfalso. apply NG. now apply nth_error_In in E. }
  assert (Nu : forall i, 1 <= i <= users -> num (Local [] i) = i).
  { intros i Hi. rewrite (Nl (Z.to_nat (i - 1)) (Local [] i)); [lia|]. unfold l. apply nth_error_app_l.
    rewrite (map_nth_error (Local []) (Z.to_nat (i - 1)) _ (d := i)); [reflexivity|]. rewrite zrange_nth by lia. f_equal. lia. }
  exists num.
  unfold expand_top in H.
  assert (X : map (fun d => (ckind d, match ckind d with ModelCard => [] | _ => cnodes d end)) cards = map (rcard num) top).
  { unfold top. rewrite map_map. apply map_ext_in. intros d Hd. unfold rcard, connect. cbn [fst snd]. f_equal.
    assert (Y : cnodes d = map (onum num) (map at_top (cnodes d))).
    { rewrite map_map. rewrite <- (map_id (cnodes d)) at 1. apply map_ext_in. intros e Hin. specialize (He d e Hd Hin).
      unfold at_top. destruct (Z.eqb_spec e (-1)); [cbn; congruence|]. destruct (Z.eqb_spec e 0); [cbn; congruence|].
      cbn [onum]. symmetry. apply Nu. lia. }
    destruct (ckind d); try exact Y. reflexivity. }
  rewrite X in H.
  destruct (expand_ok protos Hp num eq_refl fuel [] top (init_node_count users 0 0) es c) as (Ees & T & U & M).
  - intros k n E. cbn. rewrite (Nl (Z.to_nat users + k)%nat n); [lia|]. unfold l. replace (Z.to_nat users + k)%nat with (List.length (map (Local []) (zrange (Z.to_nat users) 1)) + k)%nat by (rewrite Ll; reflexivity). now apply nth_error_app_r.
  - exact H.
  - cbn [init_node_count total_nodes user_nodes subckt_nodes model_nodes] in T, U, M.
    assert (Tl : total_nodes c = Z.of_nat (List.length l)) by (unfold l; rewrite app_length, Ll; lia).
    split; [exact Ees|]. split; [reflexivity|]. split; [exact Nu|].
    split; [|split; [|split; [|repeat split; lia]]].
    + intros n [<-|Hn]; [cbn; lia|]. pose proof (index_In l n Hn) as E. rewrite (Nl _ _ E).
      assert (index n l < List.length l)%nat by (apply nth_error_Some; congruence). lia.
    + intros n n' [<-|Hn] [<-|Hn'] E; [reflexivity|..].
      * pose proof (index_In l n' Hn') as I'. rewrite (Nl _ _ I') in E. cbn in E. lia.
      * pose proof (index_In l n Hn) as I'. rewrite (Nl _ _ I') in E. cbn in E. lia.
      * pose proof (index_In l n Hn) as I1. pose proof (index_In l n' Hn') as I2. rewrite (Nl _ _ I1), (Nl _ _ I2) in E.
        assert (Q : index n l = index n' l) by lia. rewrite Q in I1. congruence.
    + intros t Ht. destruct (Z.eq_dec t 0) as [->|Nt]; [exists Ground; split; [now left|reflexivity]|].
      destruct (nth_error l (Z.to_nat (t - 1))) as [n|] eqn:E.
      * exists n. split; [right; now apply nth_error_In in E|]. rewrite (Nl _ _ E). lia.
      * apply nth_error_None in E. lia.
Qed.
Print Assumptions C11_flattening.

(* Expansion succeeds on every well formed hierarchy without circular nesting: connections are to
   nodes that exist, instances connect every port, no more than 100 ports. *)
Definition well_connected (protos : list proto) (limit : nat) (how : Z) (d : cdef) : Prop :=
  (forall e, In e (cnodes d) -> 0 <= e <= how) /\
  (forall i, ckind d = Inst i -> exists p, nth_error protos i = Some p /\ (i < limit)%nat /\ (List.length (pports p) <= List.length (cnodes d))%nat).
Lemma fill_ports_total : forall n i ts m, 1 <= i -> i + Z.of_nat n <= 101 -> exists m', fill_ports n i ts m = Done m'.
Proof.
  induction n as [|n IH]; intros i ts m H1 H2; cbn [fill_ports]; [now exists m|].
  unfold inst_node, PORTS_PER_SUBCKT. replace ((0 <=? i - 1) && (i - 1 <? 100))%bool with true by lia. cbn [obind].
  apply IH; lia.
Qed.
Lemma mapM_total : forall A B (f : A -> out B) (P : B -> Prop) l, (forall a, In a l -> exists b, f a = Done b /\ P b) -> exists r, mapM f l = Done r /\ Forall P r /\ List.length r = List.length l.
Proof.
  induction l as [|a l IH]; intros H; cbn [mapM]; [exists []; repeat split; constructor|].
  destruct (H a (or_introl eq_refl)) as (b & -> & Hb). destruct IH as (r & -> & Hr & Lr); [intros x Hx; apply H; now right|].
  exists (b :: r). split; [reflexivity|]. split; [now constructor|]. cbn. now rewrite Lr.
Qed.
Definition ready (protos : list proto) (limit : nat) (c : counts) (card : kind * list Z) : Prop :=
  (forall t, In t (snd card) -> 0 <= t <= total_nodes c) /\
  (forall i, fst card = Inst i -> exists p, nth_error protos i = Some p /\ (i < limit)%nat /\ (List.length (pports p) <= List.length (snd card))%nat).

Lemma expand_total : forall protos,
  (forall k p, nth_error protos k = Some p -> Z.of_nat (List.length (pports p)) <= Z.min 100 (phow p) /\
     (forall e, In e (pports p) -> e <= phow p) /\
     forall d, In d (pcards p) -> well_connected protos k (phow p) d) ->
  forall fuel cards c, 0 <= total_nodes c -> (forall card, In card cards -> ready protos fuel c card) ->
  exists es c', expand protos (S fuel) cards c = Done (es, c') /\ total_nodes c <= total_nodes c'.
Proof.
  intros protos WF. induction fuel as [fuel IHf] using lt_wf_ind. intros cards. cbn [expand].
  induction cards as [|[k ts] rest IH]; intros c Hc H; [exists [], c; split; [reflexivity|lia]|]. cbn [expand_list].
  assert (S1 : exists e c1, expand_card protos (expand protos fuel) k ts c = Done (e, c1) /\ total_nodes c <= total_nodes c1).
  { destruct k as [| |i|]; cbn [expand_card].
    - eexists _, _. split; [reflexivity|lia].
    - eexists _, _. split; [reflexivity|]. cbn. lia.
    - destruct (H (Inst i, ts) (or_introl eq_refl)) as [Hts X]. destruct (X i eq_refl) as (p & Ep & L & Lp). cbn [fst snd] in *.
      rewrite Ep. destruct (WF i p Ep) as (Wn & We & Wc). unfold map_subckt_nodes.
      replace (Z.of_nat (List.length (pports p)) <=? phow p) with true by lia. cbn [negb].
      assert (Fb : forallb (fun e => e <=? phow p) (pports p) = true) by (apply forallb_forall; intros e Hin; specialize (We e Hin); lia).
      rewrite Fb. cbn [negb].
      destruct (fill_ports_total (List.length (pports p)) 1 ts (fun _ => 0)) as (m & Em); [lia|lia|]. rewrite Em. cbn [obind].
      pose proof (fill_ports_ok _ _ _ _ _ Em) as Hm.
      destruct (fill_internal _ _ m c) as [m2 c2] eqn:Ei. destruct (fill_internal_ok _ _ _ _ _ _ Ei) as [Hm2 Ec2].
      assert (T2 : total_nodes c2 = total_nodes c + (phow p - Z.of_nat (List.length (pports p)))) by (rewrite Ec2; cbn; lia).
      assert (V : forall e, 0 <= e <= phow p -> 0 <= m2 e <= total_nodes c2).
      { intros e He. rewrite Hm2, Hm.
        match goal with |- context [if ?b then _ else _] => destruct b eqn:C1 end; [lia|].
        destruct ((1 <=? e) && (e <? 1 + Z.of_nat (List.length (pports p))))%bool eqn:C2; [|lia].
        assert (In (nth (Z.to_nat (e - 1)) ts (-1)) ts) as Hin by (apply nth_In; lia). specialize (Hts _ Hin). lia. }
      destruct (mapM_total _ _ (map_card (phow p) m2 c2) (ready protos i c2) (pcards p)) as (sub & Esub & Rs & _).
      + intros d Hd. destruct (Wc d Hd) as [W1 W2].
        assert (M : exists l, mapM (map_subckt_node (phow p) m2 c2) (cnodes d) = Done l /\ Forall (fun t => 0 <= t <= total_nodes c2) l /\ List.length l = List.length (cnodes d)).
        { apply mapM_total. intros e He. specialize (W1 e He). specialize (V e W1). unfold map_subckt_node, INVALID_NODE, node_is_valid.
          replace (e =? -1) with false by lia. replace ((0 <=? e) && (e <=? phow p))%bool with true by lia.
          replace ((0 <=? m2 e) && (m2 e <=? total_nodes c2))%bool with true by lia. eexists. split; [reflexivity|exact V]. }
        destruct M as (l & El & Fl & Ll). rewrite Forall_forall in Fl. unfold map_card.
        destruct (ckind d) as [| |i'|] eqn:Kd.
        * rewrite El. cbn [obind]. eexists. split; [reflexivity|]. split; [exact Fl|]. discriminate.
        * rewrite El. cbn [obind]. eexists. split; [reflexivity|]. split; [exact Fl|]. discriminate.
        * rewrite El. cbn [obind]. eexists. split; [reflexivity|]. split; [exact Fl|]. cbn [fst snd]. intros i0 E0. injection E0 as <-.
          destruct (W2 i' eq_refl) as (p' & Ep' & Li' & Lp'). exists p'. split; [exact Ep'|]. split; [lia|]. now rewrite Ll.
        * eexists. split; [reflexivity|]. split; [intros t []|]. discriminate.
      + rewrite Esub. cbn [obind]. rewrite Forall_forall in Rs.
        destruct fuel as [|fuel]; [lia|].
        destruct (IHf fuel ltac:(lia) sub c2) as (es & c3 & E3 & T3); [lia| |].
        * intros card Hin. destruct (Rs card Hin) as [R1 R2]. split; [exact R1|]. intros i0 E0. destruct (R2 i0 E0) as (p' & A & B & C).
          exists p'. split; [exact A|]. split; [lia|exact C].
        * rewrite E3. cbn [obind]. eexists _, _. split; [reflexivity|lia].
    - eexists _, _. split; [reflexivity|lia]. }
  destruct S1 as (e & c1 & E1 & T1). rewrite E1. cbn [obind].
  destruct (IH c1) as (es & c2 & E2 & T2); [lia| |].
  - intros card Hin. destruct (H card (or_intror Hin)) as [A B]. split; [|exact B]. intros t Ht. specialize (A t Ht). lia.
  - rewrite E2. cbn [obind]. eexists _, _. split; [reflexivity|lia].
Qed.

Theorem C11_no_exception : forall protos users cards, 0 <= users ->
  (forall k p, nth_error protos k = Some p -> Z.of_nat (List.length (pports p)) <= Z.min 100 (phow p) /\
     (forall e, In e (pports p) -> e <= phow p) /\
     forall d, In d (pcards p) -> well_connected protos k (phow p) d) ->
  (forall d, In d cards -> well_connected protos (List.length protos) users d) ->
  exists es c, expand_top protos (S (List.length protos)) users cards = Done (es, c).
Proof.
  intros protos users cards Hu WF W. unfold expand_top.
  destruct (expand_total protos WF (List.length protos) (map (fun d => (ckind d, match ckind d with ModelCard => [] | _ => cnodes d end)) cards)
    (init_node_count users 0 0)) as (es & c & E & _).
  - cbn. lia.
  - intros card Hin. apply in_map_iff in Hin. destruct Hin as (d & <- & Hd). destruct (W d Hd) as [W1 W2]. split; cbn [fst snd].
    + intros t Ht. cbn [init_node_count total_nodes]. destruct (ckind d); try (specialize (W1 t Ht); lia). destruct Ht.
    + intros i E. rewrite E. apply W2. exact E.
  - now exists es, c.
Qed.
Print Assumptions C11_no_exception.

(* After the ordering too: two nets get the same row of the matrix only when they are one net,
   and only ground gets row 0. *)
Theorem C11_same_row_same_net : forall o protos fuel users cards es c,
  (forall p, In p protos -> ports_in_order p) -> 0 <= users ->
  (forall d e, In d cards -> In e (cnodes d) -> -1 <= e <= users) ->
  expand_top protos fuel users cards = Done (es, c) ->
  let top := map (connect at_top) cards in
  let nets := Ground :: map (Local []) (zrange (Z.to_nat users) 1) ++ made protos fuel [] top in
  exists (num : net -> Z) nm, map__nodes o (total_nodes c) = Some nm /\
    es = map (render num) (elaborate protos fuel [] top) /\
    forall n, In n nets -> exists row, map_node c nm (num n) = Some row /\ 0 <= row <= total_nodes c /\ (row = 0 <-> n = Ground) /\
      forall n', In n' nets -> map_node c nm (num n') = Some row -> n' = n.
Proof.
  intros o protos fuel users cards es c Hp Hu He H top nets.
  destruct (C11_flattening protos fuel users cards es c Hp Hu He H) as (num & E & G & _ & R & I & _ & T & _).
  fold top in E, R, I, T. fold nets in R, I.
  assert (Tp : 0 <= total_nodes c) by lia.
  destruct (C10_permutation o (total_nodes c) Tp) as (nm & st & Em & _ & N0 & Nr & Ni & _).
  exists num, nm. split; [exact Em|]. split; [exact E|]. intros n Hn. pose proof (R n Hn) as Rn.
  assert (M : forall n', In n' nets -> map_node c nm (num n') = Some (nm (num n'))).
  { intros n' Hn'. specialize (R n' Hn'). unfold map_node, node_is_valid, INVALID_NODE.
    replace (num n' =? -1) with false by lia. replace ((0 <=? num n') && (num n' <=? total_nodes c))%bool with true by lia. reflexivity. }
  exists (nm (num n)). split; [now apply M|]. split.
  { destruct (Z.eq_dec (num n) 0) as [->|Nz]; [rewrite N0; lia|]. specialize (Nr (num n) ltac:(lia)). lia. }
  split.
  - split.
    + intros Z0. apply (I n Ground); [exact Hn|now left|]. rewrite G. apply Ni; [lia|lia|]. now rewrite Z0, N0.
    + intros ->. now rewrite G.
  - intros n' Hn' Eq. rewrite (M n' Hn') in Eq. injection Eq as Eq. apply I; [exact Hn'|exact Hn|]. apply Ni; [apply R; exact Hn'|lia|exact Eq].
Qed.
Print Assumptions C11_same_row_same_net.

(* a case: a filter with ports 1 2 and an internal node 3, a circuit of two such with an internal
   node of its own, instantiated twice, and a coupled coil *)
Definition filter : proto := Proto [1; 2] 3 [CDef Plain [1; 3]; CDef Plain [3; 0]; CDef Plain [3; 2]].
Definition pair : proto := Proto [1; 2; 3] 4 [CDef (Inst 0) [1; 4]; CDef (Inst 0) [4; 2]; CDef Plain [3; 4]; CDef ModelCard []].
Definition main_cards : list cdef := [CDef (Inst 1) [1; 2; 0]; CDef Coil [1; 2]; CDef (Inst 1) [2; 1; 2]].
Example flatten_pair : expand_top [filter; pair] 3 2 main_cards =
  Done ([ECard (Inst 1) [1; 2; 0] []
           [ECard (Inst 0) [1; 3] [] [ECard Plain [1; 4] [] []; ECard Plain [4; 0] [] []; ECard Plain [4; 3] [] []];
            ECard (Inst 0) [3; 2] [] [ECard Plain [3; 5] [] []; ECard Plain [5; 0] [] []; ECard Plain [5; 2] [] []];
            ECard Plain [0; 3] [] []; ECard ModelCard [] [] []];
         ECard Coil [1; 2] [6] [];
         ECard (Inst 1) [2; 1; 2] []
           [ECard (Inst 0) [2; 7] [] [ECard Plain [2; 8] [] []; ECard Plain [8; 0] [] []; ECard Plain [8; 7] [] []];
            ECard (Inst 0) [7; 1] [] [ECard Plain [7; 9] [] []; ECard Plain [9; 0] [] []; ECard Plain [9; 1] [] []];
            ECard Plain [2; 7] [] []; ECard ModelCard [] [] []]],
        Counts 2 6 1 9).
Proof. vm_compute. reflexivity. Qed.
Example pair_in_order : forall p, In p [filter; pair] -> ports_in_order p.
Proof. intros p [<-|[<-|[]]]; reflexivity. Qed.
Example pair_well_formed :
  (forall k p, nth_error [filter; pair] k = Some p -> Z.of_nat (List.length (pports p)) <= Z.min 100 (phow p) /\
     (forall e, In e (pports p) -> e <= phow p) /\
     forall d, In d (pcards p) -> well_connected [filter; pair] k (phow p) d) /\
  (forall d, In d main_cards -> well_connected [filter; pair] 2 2 d).
Proof.
  assert (W : forall d k how, forallb (fun e => (0 <=? e) && (e <=? how)) (cnodes d) = true ->
    match ckind d with Inst i => match nth_error [filter; pair] i with Some p => (i <? k)%nat && (List.length (pports p) <=? List.length (cnodes d))%nat | None => false end | _ => true end = true ->
    well_connected [filter; pair] k how d).
  { intros d k how A B. split.
    - intros e He. rewrite forallb_forall in A. specialize (A e He). lia.
    - intros i Ei. rewrite Ei in B. destruct (nth_error [filter; pair] i) as [p|]; [|discriminate]. exists p. split; [reflexivity|]. split; lia. }
  split.
  - intros [|[|k]] p E; cbn in E; [injection E as <-|injection E as <-|destruct k; discriminate]; (split; [cbn; lia|]; split; [cbn; lia|]);
    intros d Hd; repeat destruct Hd as [<-|Hd]; try destruct Hd; apply W; reflexivity.
  - intros d Hd; repeat destruct Hd as [<-|Hd]; try destruct Hd; apply W; reflexivity.
Qed.

(* ---------------- C57: the header of a subcircuit ---------------- *)
(* the distinct names, ground left out, in order of first appearance *)
Fixpoint port_names (ci : bool) (names : list key) (seen : list key) : list key :=
  match names with
  | [] => seen
  | s :: rest => let k := stored_name ci s in
    port_names ci rest (if keq k (str "0") then seen else if in_dec keq k seen then seen else seen ++ [k])
  end.
(* the last name is neither ground nor a repetition *)
Definition last_is_new (ci : bool) (names : list key) : Prop :=
  match rev names with [] => True | s :: before => stored_name ci s <> str "0" /\ ~ In (stored_name ci s) (map (stored_name ci) before) end.

Lemma put_at_end : forall l v, put_at l (List.length l) v = l ++ [v].
Proof. induction l as [|x l IH]; intros v; cbn; [reflexivity|]. now rewrite IH. Qed.
Lemma put_at_last : forall l x v, put_at (l ++ [x]) (List.length l) v = l ++ [v].
Proof. induction l as [|y l IH]; intros x v; cbn; [reflexivity|]. now rewrite IH. Qed.
Lemma zrange_snoc : forall n i, zrange (S n) i = zrange n i ++ [i + Z.of_nat n].
Proof.
  induction n as [|n IH]; intros i; [cbn; f_equal; lia|]. change (zrange (S (S n)) i) with (i :: zrange (S n) (i + 1)). rewrite IH.
  cbn [zrange app]. f_equal. f_equal. f_equal. lia.
Qed.
Definition stray_of (ports : list Z) (n : nat) : Prop := ports = zrange n 1 \/ exists x, ports = zrange n 1 ++ [x].

Lemma how_many_built : forall m ks, built m ks -> how_many m = Z.of_nat (List.length ks).
Proof. intros m ks (E & _). unfold how_many. rewrite E. cbn [List.length]. rewrite number_len. lia. Qed.
Lemma header_step : forall ci s m ks, built m ks ->
  let k := stored_name ci s in
  let r := new_node ci s m in
  let ks' := if keq k (str "0") then ks else if in_dec keq k ks then ks else ks ++ [k] in
  built (fst r) ks' /\
  (if nnum (snd r) =? 0 then List.length ks else if negb (how_many (fst r) =? Z.of_nat (List.length ks) + 1) then List.length ks else S (List.length ks)) = List.length ks' /\
  (k <> str "0" -> ~ In k ks -> nnum (snd r) = Z.of_nat (List.length ks) + 1).
Proof.
  intros ci s m ks B k r ks'. destruct (new_built m ks ci s B) as (B' & F & _). fold k in B', F. fold ks' in B'. fold r in B', F.
  split; [exact B'|]. rewrite (how_many_built _ _ B'). rewrite (built_find _ _ _ B') in F.
  destruct (keq k (str "0")) as [K0|K0].
  - injection F as F. unfold ks'. rewrite <- F. cbn. split; [reflexivity|]. intros X. contradiction.
  - destruct (number_find _ _ _ _ F) as (i & Ei & En). rewrite En. cbn [nnum]. replace (Z.of_nat (1 + i) =? 0) with false by lia.
    unfold ks' in *. destruct (in_dec keq k ks) as [I|N].
    + replace (Z.of_nat (List.length ks) =? Z.of_nat (List.length ks) + 1) with false by lia. cbn. split; [reflexivity|]. intros _ X. contradiction.
    + rewrite app_length. cbn [List.length]. replace (Z.of_nat (List.length ks + 1) =? Z.of_nat (List.length ks) + 1) with true by lia. cbn [negb].
      split; [lia|]. intros _ _.
      assert (i = List.length ks); [|lia].
      destruct (Nat.lt_ge_cases i (List.length ks)) as [L|L].
      * rewrite nth_error_app1 in Ei by assumption. apply nth_error_In in Ei. contradiction.
      * assert (i < List.length (ks ++ [k]))%nat by (apply nth_error_Some; congruence). rewrite app_length in H. cbn in H. lia.
Qed.
Lemma header_ok : forall ci names m ks ports, built m ks -> stray_of ports (List.length ks) ->
  let r := header ci names (List.length ks) ports m in
  let ks' := port_names ci names ks in
  built (snd r) ks' /\ stray_of (fst r) (List.length ks') /\
  (match rev names with [] => False | s :: before => stored_name ci s <> str "0" /\ ~ In (stored_name ci s) (map (stored_name ci) before) /\ ~ In (stored_name ci s) ks end ->
    fst r = zrange (List.length ks') 1).
Proof.
  intros ci names. induction names as [|s rest IH]; intros m ks ports B P; cbn [header port_names rev].
  - split; [exact B|]. split; [exact P|]. intros [].
  - pose proof (header_step ci s m ks B) as St. cbv zeta in St. destruct (new_node ci s m) as [m' nd]. cbn [fst snd] in St.
    set (k := stored_name ci s) in *.
    set (ks' := if keq k (str "0") then ks else if in_dec keq k ks then ks else ks ++ [k]) in *.
    destruct St as (B' & Ix & Nn). rewrite Ix.
    assert (Pp : put_at ports (List.length ks) (nnum nd) = zrange (List.length ks) 1 ++ [nnum nd]).
    { destruct P as [-> | [x ->]].
      - rewrite <- (zrange_len (List.length ks) 1) at 2. apply put_at_end.
      - rewrite <- (zrange_len (List.length ks) 1) at 2. apply put_at_last. }
    rewrite Pp.
    assert (Full : k <> str "0" -> ~ In k ks -> zrange (List.length ks) 1 ++ [nnum nd] = zrange (List.length ks') 1).
    { intros K0 NI. rewrite (Nn K0 NI). unfold ks'. destruct (keq k (str "0")); [contradiction|]. destruct (in_dec keq k ks); [contradiction|].
      rewrite app_length. cbn [List.length]. rewrite Nat.add_1_r, zrange_snoc. f_equal. f_equal. lia. }
    assert (P' : stray_of (zrange (List.length ks) 1 ++ [nnum nd]) (List.length ks')).
    { unfold ks'. destruct (keq k (str "0")) as [K0|K0]; [right; now exists (nnum nd)|]. destruct (in_dec keq k ks) as [I|N]; [right; now exists (nnum nd)|].
      left. rewrite (Full K0 N). unfold ks'. destruct (keq k (str "0")); [contradiction|]. destruct (in_dec keq k ks); [contradiction|]. reflexivity. }
    destruct (IH m' ks' _ B' P') as (H1 & H2 & H3). split; [exact H1|]. split; [exact H2|].
    intros L. destruct (rev rest) as [|s2 before] eqn:Er.
    + assert (rest = []) by (destruct rest as [|y rest]; [reflexivity|]; cbn in Er; now destruct (rev rest)). subst rest.
      cbn [app] in L. cbn [header port_names fst]. destruct L as (L1 & _ & L3). apply Full; assumption.
    + cbn [app] in L. destruct L as (L1 & L2 & L3). apply H3. split; [exact L1|].
      rewrite map_app in L2. cbn [map] in L2. fold k in L2. split.
      * intros X. apply L2. apply in_or_app. now left.
      * unfold ks'. intros X. assert (In (stored_name ci s2) ks \/ stored_name ci s2 = k) as [Y|Y].
        { destruct (keq k (str "0")); [now left|]. destruct (in_dec keq k ks); [now left|]. apply in_app_or in X. destruct X as [X|[X|[]]]; [now left|now right]. }
        -- contradiction.
        -- apply L2. apply in_or_app. right. left. now symmetry.
Qed.

(* Reading the header line of a subcircuit whose last name is a new one: the ports are exactly the
   distinct names in order, numbered 1, 2, ..., as flattening needs. *)
Theorem C57_header : forall ci names, last_is_new ci names ->
  let r := subckt_header ci names in
  let ks := port_names ci names [] in
  fst r = zrange (List.length ks) 1 /\ how_many (snd r) = Z.of_nat (List.length ks) /\
  (forall how cards, ports_in_order (Proto (fst r) how cards)) /\
  forall i k, nth_error ks i = Some k -> lookup false k (snd r) = Some (Node (S i) k (Z.of_nat i + 1)).
Proof.
  intros ci names L r ks.
  destruct (header_ok ci names empty_map [] [] empty_built (or_introl eq_refl)) as (B & _ & H).
  change (header ci names (List.length []) [] empty_map) with r in B, H. fold ks in B, H.
  assert (E : fst r = zrange (List.length ks) 1).
  { unfold last_is_new in L. destruct (rev names) as [|s before] eqn:Er.
    - assert (names = []) by (destruct names as [|y rest]; [reflexivity|]; cbn in Er; now destruct (rev rest)). subst. reflexivity.
    - apply H. destruct L as [L1 L2]. split; [exact L1|]. split; [exact L2|]. intros []. }
  split; [exact E|]. split; [exact (how_many_built _ _ B)|]. split.
  - intros how cards. unfold ports_in_order. cbn [pports]. rewrite E, zrange_len. reflexivity.
  - intros i k Ei. pose proof B as (_ & _ & ND & N0). unfold lookup. rewrite (built_find _ _ _ B).
    destruct (keq k (str "0")) as [->|K0]; [exfalso; apply N0; now apply nth_error_In in Ei|].
    destruct (in_number ks 1 k ND (nth_error_In _ _ Ei)) as (i' & Ei' & ->).
    assert (i' = i) by (apply (proj1 (NoDup_nth_error ks) ND); [apply nth_error_Some; congruence|congruence]). subst i'.
    do 2 f_equal. lia.
Qed.
Print Assumptions C57_header.
Example header_abc : subckt_header true [str "A"; str "b"; str "a"; str "0"; str "c"] =
  ([1; 2; 3], snd (subckt_header true [str "a"; str "b"; str "c"])).
Proof. vm_compute. reflexivity. Qed.

(* Not so when the line ends with ground or with a name given before: the rejected name stays as one
   more port, and the first internal node of the subcircuit is then joined to whatever the instance
   has in that place: here "subckt f a b 0" with a device between its internal node and a, and an
   instance connected to 1 2 3, puts the device between 3 and 1. *)
Theorem C57_trailing_ground_refuted : exists names how es c,
  let ports := fst (subckt_header true names) in
  let n := List.length (port_names true names []) in
  expand_top [Proto ports how [CDef Plain [how; 1]]] 2 3 [CDef (Inst 0) [1; 2; 3]] = Done (es, c) /\
  Z.of_nat n < how /\
  es = [ECard (Inst 0) [1; 2; 3] [] [ECard Plain [3; 1] [] []]] /\ total_nodes c = 3.
Proof.
  exists [str "a"; str "b"; str "0"], 3. eexists. eexists. cbv zeta. split; [vm_compute; reflexivity|]. split; [vm_compute; reflexivity|].
  split; reflexivity.
Qed.
Print Assumptions C57_trailing_ground_refuted.
