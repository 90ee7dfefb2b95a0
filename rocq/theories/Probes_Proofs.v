(* Proofs about Probes_Model: the counts kept by the objects agree with the lists. *)
Require Import ZArith QArith List Ascii String Bool Lia Permutation.
Require Import Verif.Loops Verif.Wmatch_Model Verif.CS_Model Verif.CS_Proofs Verif.CS_Ops Verif.Probes_Model.
Import ListNotations.
Local Open Scope Z_scope.

(* how many probes of a list are on an object *)
Definition on (o : Z) (p : probe) : bool := match p_obj p with Some k => k =? o | None => false end.
Definition num (o : Z) (l : list probe) : Z := Z.of_nat (List.length (filter (on o) l)).
Lemma num_app : forall o a b, num o (a ++ b) = num o a + num o b.
Proof. intros. unfold num. rewrite filter_app, app_length. lia. Qed.
Lemma num_nil : forall o, num o [] = 0. Proof. reflexivity. Qed.
Lemma num_cons : forall o p l, num o (p :: l) = (if on o p then 1 else 0) + num o l.
Proof. intros. unfold num. cbn [filter]. destruct (on o p); cbn [List.length]; lia. Qed.
Lemma num_rev : forall o l, num o (rev l) = num o l.
Proof. intros o l. induction l as [|p l IH]; [reflexivity|]. cbn [rev]. rewrite num_app, !num_cons, num_nil. lia. Qed.
Lemma num_pos : forall o l, 0 <= num o l. Proof. intros. unfold num. lia. Qed.

(* the counts are those of the list l and of some other probes *)
Definition bal (c : counts) (l : list probe) (r : Z -> Z) : Prop := forall o, c o = num o l + r o.
Definition pos (r : Z -> Z) : Prop := forall o, 0 <= r o.
Ltac nums := repeat first [rewrite num_app in *|rewrite num_cons in *|rewrite num_nil in *|rewrite num_rev in *].

Lemma attach_ok : forall b c o, attach b c o = c o + (if on o (Probe [] b 0 0) then 1 else 0).
Proof.
  intros [k|] c o; cbn; [|lia]. unfold inc_probes, set_count. destruct (Z.eqb_spec o k) as [->|N]; [rewrite Z.eqb_refl; lia|].
  destruct (Z.eqb_spec k o); [congruence|lia].
Qed.
Lemma on_obj : forall o p w lo hi, on o (Probe w (p_obj p) lo hi) = on o p. Proof. reflexivity. Qed.
Lemma detach_ok : forall p l r c, pos r -> bal c (p :: l) r -> exists c', detach (p_obj p) c = Done c' /\ bal c' l r.
Proof.
  intros p l r c Hr B. unfold detach. destruct (p_obj p) as [k|] eqn:E.
  - unfold dec_probes. assert (0 < c k). { rewrite B. nums. unfold on. rewrite E, Z.eqb_refl. pose proof (num_pos k l). specialize (Hr k). lia. }
    destruct (Z.ltb_spec 0 (c k)); [|lia]. eexists. split; [reflexivity|]. intros o. unfold set_count. specialize (B o). nums.
    unfold on in B. rewrite E in B. destruct (Z.eqb_spec o k) as [->|N]; [rewrite Z.eqb_refl in B; lia|]. destruct (Z.eqb_spec k o); [congruence|lia].
  - eexists. split; [reflexivity|]. intros o. specialize (B o). nums. unfold on in B. rewrite E in B. lia.
Qed.
Lemma attach_bal : forall p l r c, bal c l r -> bal (attach (p_obj p) c) (p :: l) r.
Proof. intros p l r c B o. rewrite attach_ok, B, num_cons. change (on o (Probe [] (p_obj p) 0 0)) with (on o p). lia. Qed.

Lemma destroy_all_ok : forall l l2 r c, pos r -> bal c (l ++ l2) r -> exists c', destroy_all l c = Done c' /\ bal c' l2 r.
Proof.
  induction l as [|p l IH]; intros l2 r c Hr B; [now exists c|]. cbn [destroy_all app] in *.
  destruct (detach_ok p (l ++ l2) r c Hr B) as (c1 & E1 & B1). unfold destroy. rewrite E1. cbn [obind]. now apply IH.
Qed.
Lemma copy_all_ok : forall l l2 r c, bal c l2 r -> bal (copy_all l c) (l ++ l2) r.
Proof.
  induction l as [|p l IH]; intros l2 r c B; [exact B|]. unfold copy_all. cbn [fold_left]. fold (copy_all l (snd (copy p c))).
  unfold copy. cbn [snd]. specialize (IH (p :: l2) r _ (attach_bal p _ _ _ B)). intros o. rewrite (IH o). cbn [app]. nums. lia.
Qed.

Section L.
Variable grow : list probe -> bool.
Lemma push_new_ok : forall what b l r c, pos r -> bal c l r ->
  exists c', push_new_probe grow what b (l, c) = Done (l ++ [Probe what b 0 0], c') /\ bal c' (l ++ [Probe what b 0 0]) r.
Proof.
  intros what b l r c Hr B. unfold push_new_probe, construct, push_back, copy. cbn [fst snd p_obj].
  set (p := Probe what b 0 0). pose proof (attach_bal p _ _ _ B) as B1. pose proof (attach_bal p _ _ _ B1) as B2.
  change (p_obj p) with b in B1, B2.
  destruct (grow l).
  - pose proof (copy_all_ok l _ _ _ B2) as B3. destruct (destroy_all_ok l (p :: p :: l) r (copy_all l (attach b (attach b c))) Hr) as (c4 & E4 & B4).
    { intros o. rewrite (B3 o). nums. lia. }
    rewrite E4. cbn [obind]. destruct (detach_ok p (l ++ [p]) r c4 Hr) as (c5 & E5 & B5).
    { intros o. rewrite (B4 o). nums. lia. }
    unfold destroy. cbn [p_obj] in *. fold p. rewrite E5. cbn [obind]. exists c5. now split.
  - cbn [obind]. destruct (detach_ok p (l ++ [p]) r (attach b (attach b c)) Hr) as (c5 & E5 & B5).
    { intros o. rewrite (B2 o). nums. lia. }
    unfold destroy. fold p. rewrite E5. cbn [obind]. exists c5. now split.
Qed.
Lemma push_all_ok : forall what os l r c, pos r -> bal c l r ->
  exists c', push_all grow what os (l, c) = Done (l ++ map (fun b => Probe what b 0 0) os, c') /\ bal c' (l ++ map (fun b => Probe what b 0 0) os) r.
Proof.
  intros what os. induction os as [|b os IH]; intros l r c Hr B; cbn [push_all map].
  - exists c. rewrite app_nil_r. now split.
  - destruct (push_new_ok what b l r c Hr B) as (c1 & E1 & B1). rewrite E1. cbn [obind].
    destruct (IH _ r c1 Hr B1) as (c2 & E2 & B2). exists c2. rewrite E2, <- app_assoc. cbn [app]. split; [reflexivity|].
    rewrite <- app_assoc in B2. exact B2.
Qed.
End L.

Lemma remove_loop_ok : forall pred rest kept gap r c, pos r -> gap <> [] -> bal c (kept ++ gap ++ rest) r ->
  exists gap' c', remove_loop pred kept gap rest c = Done (rev kept ++ filter (fun p => negb (pred p)) rest, gap', c') /\
    bal c' (gap' ++ rev kept ++ filter (fun p => negb (pred p)) rest) r.
Proof.
  intros pred rest. induction rest as [|x rest IH]; intros kept gap r c Hr Hg B; cbn [remove_loop filter].
  - exists gap, c. rewrite app_nil_r. split; [reflexivity|]. intros o. rewrite (B o). nums. lia.
  - destruct (pred x) eqn:Px; cbn [negb].
    + apply (IH kept (gap ++ [x]) r c Hr); [now destruct gap|]. intros o. rewrite (B o). nums. lia.
    + destruct gap as [|g gs]; [congruence|]. unfold assign.
      destruct (detach_ok g (kept ++ gs ++ x :: rest) r c Hr) as (c1 & E1 & B1).
      { intros o. rewrite (B o). nums. lia. }
      rewrite E1. cbn [obind].
      destruct (IH (x :: kept) (gs ++ [x]) r (attach (p_obj x) c1) Hr) as (gap' & c' & E' & B').
      { now destruct gs. }
      { intros o. rewrite (attach_bal x _ _ _ B1 o). nums. lia. }
      exists gap', c'. cbn [rev] in E', B'. rewrite <- app_assoc in E', B'. cbn [app] in E', B'. now split.
Qed.
Lemma std_remove_ok : forall pred rest kept r c, pos r -> bal c (kept ++ rest) r ->
  exists gap' c', std_remove pred kept rest c = Done (rev kept ++ filter (fun p => negb (pred p)) rest, gap', c') /\
    bal c' (gap' ++ rev kept ++ filter (fun p => negb (pred p)) rest) r.
Proof.
  intros pred rest. induction rest as [|x rest IH]; intros kept r c Hr B; cbn [std_remove filter].
  - exists [], c. rewrite app_nil_r. split; [reflexivity|]. intros o. rewrite (B o). cbn [app]. nums. lia.
  - destruct (pred x) eqn:Px; cbn [negb].
    + destruct (remove_loop_ok pred rest kept [x] r c Hr) as (g & c' & E & B'); [discriminate|exact B|]. exists g, c'. now split.
    + destruct (IH (x :: kept) r c Hr) as (g & c' & E & B').
      { intros o. rewrite (B o). nums. cbn [app]. nums. lia. }
      exists g, c'. cbn [rev] in E, B'. rewrite <- app_assoc in E, B'. now split.
Qed.
Lemma remove_erase_ok : forall pred l r c, pos r -> bal c l r ->
  exists c', remove_erase pred (l, c) = Done (filter (fun p => negb (pred p)) l, c') /\ bal c' (filter (fun p => negb (pred p)) l) r.
Proof.
  intros pred l r c Hr B. unfold remove_erase. cbn [fst snd]. destruct (std_remove_ok pred l [] r c Hr B) as (g & c1 & E1 & B1).
  rewrite E1. cbn [obind rev app] in *. destruct (destroy_all_ok g _ r c1 Hr B1) as (c2 & E2 & B2). rewrite E2. cbn [obind]. exists c2. now split.
Qed.
Lemma clear_ok : forall l r c, pos r -> bal c l r -> exists c', clear (l, c) = Done ([], c') /\ bal c' [] r.
Proof.
  intros l r c Hr B. unfold clear. cbn [fst snd]. destruct (destroy_all_ok l [] r c Hr) as (c2 & E2 & B2); [now rewrite app_nil_r|].
  rewrite E2. cbn [obind]. exists c2. now split.
Qed.

(* ---- all the lists ---- *)
Definition kinds := [k_alarm; k_plot; k_print; k_store].
Definition total (o : Z) (ls : lists) : Z := fold_right Z.add 0 (map (fun km => num o (ls (fst km) (snd km))) (list_prod kinds modes)).
Definition agree (c : counts) (ls : lists) : Prop := forall o, c o = total o ls.
Definition others (k : kind) (m : mode) (ls : lists) (o : Z) : Z := total o ls - num o (ls k m).
Lemma others_pos : forall k m ls, pos (others k m ls).
Proof.
  intros k m ls o. unfold others, total, list_prod, kinds, modes. cbn [map app fst snd fold_right].
  pose proof (num_pos o) as P.
  repeat match goal with |- context [num o ?l] => lazymatch goal with H : 0 <= num o l |- _ => fail | _ => pose proof (P l) end end.
  destruct k, m; lia.
Qed.
Lemma total_set : forall k m ls l o, total o (set_list ls k m l) = others k m ls o + num o l.
Proof.
  intros k m ls l o. unfold others, total, list_prod, kinds, modes, set_list. cbn [map app fst snd fold_right].
  destruct k, m; cbn [kind_eqb mode_eqb andb]; lia.
Qed.
Lemma agree_bal : forall c ls k m, agree c ls -> bal c (ls k m) (others k m ls).
Proof. intros c ls k m A o. rewrite (A o). unfold others. lia. Qed.
Lemma bal_agree : forall c ls k m l, bal c l (others k m ls) -> agree c (set_list ls k m l).
Proof. intros c ls k m l B o. rewrite total_set, (B o). lia. Qed.
Lemma mode_eqb_eq : forall a b, mode_eqb a b = true <-> a = b. Proof. intros [] []; split; intros H; try reflexivity; discriminate H. Qed.
Lemma kind_eqb_eq : forall a b, kind_eqb a b = true <-> a = b. Proof. intros [] []; split; intros H; try reflexivity; discriminate H. Qed.
Lemma set_list_same : forall ls k m l, set_list ls k m l k m = l.
Proof. intros ls [] [] l; reflexivity. Qed.
Lemma set_list_other : forall ls k m l k' m', (k', m') <> (k, m) -> set_list ls k m l k' m' = ls k' m'.
Proof.
  intros ls k m l k' m' N. unfold set_list. destruct (kind_eqb k' k) eqn:E1; [|reflexivity]. destruct (mode_eqb m' m) eqn:E2; [|reflexivity].
  apply kind_eqb_eq in E1. apply mode_eqb_eq in E2. congruence.
Qed.
Lemma total_pos : forall o ls, 0 <= total o ls.
Proof. intros o ls. pose proof (others_pos k_alarm s_NONE ls o). unfold others in H. pose proof (num_pos o (ls k_alarm s_NONE)). lia. Qed.
Lemma total_ge : forall o ls k m, num o (ls k m) <= total o ls.
Proof. intros o ls k m. pose proof (others_pos k m ls o). unfold others in H. lia. Qed.

(* the lists after a purge *)
Definition without (o : Z) (l : list probe) : list probe := filter (fun p => negb (on o p)) l.
Lemma without_num : forall o l, num o (without o l) = 0.
Proof. intros o l. induction l as [|p l IH]; [reflexivity|]. unfold without in *. cbn [filter]. destruct (on o p) eqn:E; cbn [negb]; [exact IH|]. rewrite num_cons, E, IH. reflexivity. Qed.
Lemma without_idem : forall o l, without o (without o l) = without o l.
Proof. intros o l. unfold without. induction l as [|p l IH]; [reflexivity|]. cbn [filter]. destruct (on o p) eqn:E; cbn [negb]; [exact IH|]. cbn [filter]. rewrite E. cbn [negb]. now rewrite IH. Qed.
Lemma without_none : forall o l, num o l = 0 -> without o l = l.
Proof.
  intros o l. induction l as [|p l IH]; intros H; [reflexivity|]. rewrite num_cons in H. pose proof (num_pos o l). unfold without in *. cbn [filter].
  destruct (on o p); [lia|]. cbn [negb]. f_equal. apply IH. lia.
Qed.

Lemma purge_one_ok : forall o k m ls c, agree c ls ->
  exists ls' c', purge_one o k m (ls, c) = Done (ls', c') /\ agree c' ls' /\ ls' k m = without o (ls k m) /\
    (forall k' m', (k', m') <> (k, m) -> ls' k' m' = ls k' m').
Proof.
  intros o k m ls c A. unfold purge_one, remove_one. cbn [fst snd].
  destruct (remove_erase_ok (on o) (ls k m) _ c (others_pos k m ls) (agree_bal _ _ k m A)) as (c' & E & B).
  change (fun p : probe => match p_obj p with Some k => k =? o | None => false end) with (on o). rewrite E. cbn [obind].
  eexists _, c'. split; [reflexivity|]. split; [now apply bal_agree|]. split; [apply set_list_same|]. intros k' m' N. now apply set_list_other.
Qed.
Lemma purge_loop_ok : forall o ms ls c, agree c ls ->
  exists ls' c', purge_loop o ms (ls, c) = Done (ls', c') /\ agree c' ls' /\
    forall k m, ls' k m = if existsb (mode_eqb m) ms then without o (ls k m) else ls k m.
Proof.
  intros o ms. induction ms as [|m ms IH]; intros ls c A; cbn [purge_loop].
  - exists ls, c. split; [reflexivity|]. now split.
  - destruct (purge_one_ok o k_alarm m ls c A) as (l1 & c1 & E1 & A1 & S1 & O1). rewrite E1. cbn [obind].
    destruct (purge_one_ok o k_plot m l1 c1 A1) as (l2 & c2 & E2 & A2 & S2 & O2). rewrite E2. cbn [obind].
    destruct (purge_one_ok o k_print m l2 c2 A2) as (l3 & c3 & E3 & A3 & S3 & O3). rewrite E3. cbn [obind].
    destruct (purge_one_ok o k_store m l3 c3 A3) as (l4 & c4 & E4 & A4 & S4 & O4). rewrite E4. cbn [obind].
    destruct (IH l4 c4 A4) as (l5 & c5 & E5 & A5 & H5). exists l5, c5. split; [exact E5|]. split; [exact A5|].
    intros k m'. rewrite H5. cbn [existsb].
    assert (X : l4 k m' = if mode_eqb m' m then without o (ls k m') else ls k m').
    { destruct (mode_eqb m' m) eqn:E.
      - apply mode_eqb_eq in E. subst m'. destruct k.
        + rewrite O4, O3, O2 by congruence. exact S1.
        + rewrite O4, O3 by congruence. rewrite S2. rewrite O1 by congruence. reflexivity.
        + rewrite O4 by congruence. rewrite S3. rewrite O2, O1 by congruence. reflexivity.
        + rewrite S4. rewrite O3, O2, O1 by congruence. reflexivity.
      - assert (N : m' <> m) by (intros ->; destruct m; discriminate E).
        rewrite O4, O3, O2, O1 by congruence. reflexivity. }
    rewrite X. destruct (mode_eqb m' m), (existsb (mode_eqb m') ms); cbn [orb]; try reflexivity. apply without_idem.
Qed.
Lemma all_modes : forall m, existsb (mode_eqb m) modes = true. Proof. intros []; reflexivity. Qed.
Lemma purge_ok : forall o ls c, agree c ls ->
  exists ls' c', purge o (ls, c) = Done (ls', c') /\ agree c' ls' /\ forall k m, ls' k m = without o (ls k m).
Proof.
  intros o ls c A. destruct (purge_loop_ok o modes ls c A) as (ls' & c' & E & A' & H). exists ls', c'. split; [exact E|]. split; [exact A'|].
  intros k m. rewrite H, all_modes. reflexivity.
Qed.
Lemma total_zero : forall o ls, (forall k m, num o (ls k m) = 0) -> total o ls = 0.
Proof. intros o ls H. unfold total, list_prod, kinds, modes. cbn [map app fst snd fold_right]. rewrite !H. reflexivity. Qed.
Lemma delete_ok : forall o w, agree (w_counts w) (w_lists w) ->
  exists c ls, delete_object o w = Done (World (fun k => if k =? o then false else w_live w k) c ls (w_mode w) (w_waves w)) /\
    agree c ls /\ forall k m, ls k m = without o (w_lists w k m).
Proof.
  intros o w A. unfold delete_object. destruct (Z.eqb_spec (w_counts w o) 0) as [Z0|NZ].
  - cbn [obind]. rewrite Z0, Z.eqb_refl. eexists _, _. split; [reflexivity|]. split; [exact A|]. intros k m. symmetry. apply without_none.
    pose proof (total_ge o (w_lists w) k m). rewrite (A o) in Z0. pose proof (num_pos o (w_lists w k m)). lia.
  - destruct (purge_ok o _ _ A) as (ls & c & E & A' & H). rewrite E. cbn [obind].
    assert (Z0 : c o = 0). { rewrite (A' o). apply total_zero. intros k m. rewrite H. apply without_num. }
    rewrite Z0, Z.eqb_refl. eexists _, _. split; [reflexivity|]. now split.
Qed.
