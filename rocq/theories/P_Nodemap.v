(* C12: node names and numbers *)
Require Import ZArith List Ascii String Bool Lia.
Require Import Verif.Loops Verif.Wmatch_Model Verif.CS_Model Verif.AMap Verif.Nodemap_Model.
Import ListNotations.
Local Open Scope Z_scope.

(* requests, each under its own setting of the case_insensitive option *)
Inductive req := New (ci : bool) (s : key) | Look (ci : bool) (s : key).
Definition step (r : req) (m : nmap) : nmap :=
  match r with New ci s => fst (new_node ci s m) | Look _ _ => m end.
Fixpoint run (h : list req) (m : nmap) : nmap := match h with [] => m | r :: h' => run h' (step r m) end.

(* the names under which nodes are created, in order of first creation, ground not counted:
   defined from the requests alone *)
Definition stored_name (ci : bool) (s : key) : key := if ci then map to_lower s else s.
Fixpoint created (h : list req) (seen : list key) : list key :=
  match h with
  | [] => seen
  | New ci s :: h' =>
      let k := stored_name ci s in
      created h' (if keq k (str "0") then seen else if in_dec keq k seen then seen else seen ++ [k])
  | Look _ _ :: h' => created h' seen
  end.

(* the map that numbers those names 1, 2, ... *)
Fixpoint number_from (a : nat) (ks : list key) : amap (option node) :=
  match ks with [] => [] | k :: ks' => (k, Some (Node a k (Z.of_nat a))) :: number_from (S a) ks' end.
Definition built (m : nmap) (ks : list key) : Prop :=
  entries m = (str "0", Some ground_node) :: number_from 1 ks /\ next_addr m = S (List.length ks) /\ NoDup ks /\ ~ In (str "0") ks.

Lemma number_app : forall a ks k, number_from a (ks ++ [k]) = number_from a ks ++ [(k, Some (Node (a + List.length ks) k (Z.of_nat (a + List.length ks))))].
Proof.
  intros a ks. revert a. induction ks as [|x ks IH]; intros a k; cbn.
  - now rewrite Nat.add_0_r.
  - rewrite IH. cbn. now rewrite Nat.add_succ_r.
Qed.
Lemma number_keys : forall a ks, keys (number_from a ks) = ks.
Proof. intros a ks. revert a. induction ks as [|k ks IH]; intros a; cbn; [reflexivity|]. f_equal. apply IH. Qed.
Lemma number_len : forall a ks, List.length (number_from a ks) = List.length ks.
Proof. intros a ks. revert a. induction ks as [|k ks IH]; intros a; cbn; [reflexivity|]. now rewrite IH. Qed.
Lemma number_find : forall ks a k n, find (number_from a ks) k = Some (Some n) -> 
  exists i, nth_error ks i = Some k /\ n = Node (a + i) k (Z.of_nat (a + i)).
Proof.
  induction ks as [|x ks IH]; intros a k n H; cbn in H; [discriminate|]. destruct (keq k x) as [->|N].
  - injection H as <-. exists O. rewrite Nat.add_0_r. split; reflexivity.
  - destruct (IH _ _ _ H) as (i & E & ->). exists (S i). rewrite Nat.add_succ_r. split; [exact E|reflexivity].
Qed.
Lemma number_nonnull : forall ks a k, find (number_from a ks) k <> Some None.
Proof. induction ks as [|x ks IH]; intros a k; cbn; [discriminate|]. destruct (keq k x); [discriminate|apply IH]. Qed.
Lemma built_find : forall m ks k, built m ks ->
  find (entries m) k = if keq k (str "0") then Some (Some ground_node) else find (number_from 1 ks) k.
Proof. intros m ks k (-> & _). reflexivity. Qed.
Lemma built_null : forall m ks k, built m ks -> find (entries m) k <> Some None.
Proof. intros m ks k H. rewrite (built_find _ _ _ H). destruct (keq k (str "0")); [discriminate|apply number_nonnull]. Qed.

Lemma new_built : forall m ks ci s, built m ks ->
  let k := stored_name ci s in
  let ks' := if keq k (str "0") then ks else if in_dec keq k ks then ks else ks ++ [k] in
  built (fst (new_node ci s m)) ks' /\ find (entries (fst (new_node ci s m))) k = Some (Some (snd (new_node ci s m))) /\
  (find (entries m) k <> None -> fst (new_node ci s m) = m).
Proof.
  intros m ks ci s H. cbv zeta. unfold new_node. fold (lower s) in *. change (if ci then lower s else s) with (stored_name ci s).
  set (k := stored_name ci s). unfold ref. destruct (find (entries m) k) as [[n|]|] eqn:E.
  - cbn [fst snd entries next_addr]. assert (Em : NMap (entries m) (next_addr m) = m) by now destruct m. rewrite Em.
    split; [|split; [assumption|reflexivity]]. rewrite (built_find _ _ _ H) in E. destruct (keq k (str "0")); [assumption|].
    destruct (in_dec keq k ks) as [I|N]; [assumption|]. exfalso. apply N. apply number_find in E. destruct E as (i & E & _). eapply nth_error_In, E.
  - now elim (built_null _ _ k H).
  - cbn [fst snd entries next_addr].
    assert (N0 : k <> str "0") by (intros ->; rewrite (built_find _ _ _ H) in E; cbn in E; discriminate E).
    assert (Nk : ~ In k ks).
    { rewrite (built_find _ _ _ H) in E. destruct (keq k (str "0")) as [X|_]; [contradiction|]. apply find_none in E. now rewrite number_keys in E. }
    destruct (keq k (str "0")) as [X|_]; [contradiction|]. destruct (in_dec keq k ks) as [X|_]; [contradiction|].
    split; [|split; [apply find_put_same|intros X; now elim X]].
    destruct H as (H1 & H2 & H3 & H4). unfold built. cbn [entries next_addr].
    rewrite put_put, (put_fresh _ _ _ E). rewrite (put_fresh _ k None E). unfold how_many. cbn [entries]. split; [|split; [|split]].
    + rewrite number_app. rewrite H1 at 1. cbn [app]. do 2 f_equal. f_equal. do 2 f_equal. rewrite H2. f_equal.
      rewrite app_length, H1. cbn [List.length]. rewrite number_len. lia.
    + rewrite H2, app_length. cbn. lia.
    + rewrite <- (rev_involutive (ks ++ [k])). apply NoDup_rev. rewrite rev_app_distr. cbn. constructor; [rewrite <- in_rev; assumption|]. now apply NoDup_rev.
    + intros X. apply in_app_or in X. destruct X as [X|[X|[]]]; [now apply H4|now apply N0].
Qed.
Lemma run_built : forall h m ks, built m ks -> built (run h m) (created h ks).
Proof.
  induction h as [|[ci s|ci s] h IH]; intros m ks H; cbn [run step created]; [assumption| |now apply IH].
  apply IH. apply (new_built m ks ci s H).
Qed.
Lemma empty_built : built empty_map [].
Proof. repeat split; [constructor|intros []]. Qed.
Lemma in_number : forall ks a k, NoDup ks -> In k ks -> exists i, nth_error ks i = Some k /\ find (number_from a ks) k = Some (Some (Node (a + i) k (Z.of_nat (a + i)))).
Proof.
  intros ks a k Hd Hi. destruct (find (number_from a ks) k) as [[n|]|] eqn:E.
  - destruct (number_find _ _ _ _ E) as (i & Ei & ->). now exists i.
  - now elim (number_nonnull ks a k).
  - apply find_none in E. rewrite number_keys in E. contradiction.
Qed.

(* names and numbers, for any history: ground is 0, the i-th created name has number i, a name has
   one node forever, different names have different nodes and numbers *)
Theorem C12_new_node : forall h ci s, let m := run h empty_map in let k := stored_name ci s in
  let n := snd (new_node ci s m) in let names := created (h ++ [New ci s]) [] in
  nname n = k /\
  (k = str "0" -> n = ground_node /\ nnum n = 0) /\
  (k <> str "0" -> 1 <= nnum n /\ nth_error names (Z.to_nat (nnum n - 1)) = Some k) /\
  NoDup names /\
  how_many (fst (new_node ci s m)) = Z.of_nat (List.length names).
Proof.
  intros h ci s m k n names.
  pose proof (run_built h empty_map [] empty_built) as B. fold m in B.
  destruct (new_built m _ ci s B) as (B' & F & _). fold k n in B', F.
  assert (En : names = if keq k (str "0") then created h [] else if in_dec keq k (created h []) then created h [] else created h [] ++ [k]).
  { unfold names. assert (G : forall h0 seen, created (h0 ++ [New ci s]) seen = created [New ci s] (created h0 seen)).
    { induction h0 as [|[? ?|? ?] h0 IH]; intros seen; [reflexivity|apply IH|apply IH]. }
    rewrite G. reflexivity. }
  rewrite <- En in B'. pose proof B' as (E1 & E2 & E3 & E4). rewrite (built_find _ _ _ B') in F. destruct (keq k (str "0")) as [K|K].
  - injection F as F. rewrite <- F. split; [now rewrite K|]. split; [intros _; split; reflexivity|]. split; [intros X; contradiction|]. split; [assumption|].
    unfold how_many. rewrite E1. cbn [List.length]. rewrite number_len. lia.
  - destruct (number_find _ _ _ _ F) as (i & Ei & ->). cbn [nname nnum]. split; [reflexivity|]. split; [intros X; contradiction|]. split.
    + intros _. split; [lia|]. replace (Z.to_nat (Z.of_nat (1 + i) - 1)) with i by lia. exact Ei.
    + split; [assumption|]. unfold how_many. rewrite E1. cbn [List.length]. rewrite number_len. lia.
Qed.
Print Assumptions C12_new_node.

(* the node returned for a name is returned again for it by every later request, whatever happened
   in between; requests for other names return other nodes with other numbers *)
Theorem C12_same_name_same_node : forall h1 ci s h2 ci' s',
  let m1 := run h1 empty_map in let n := snd (new_node ci s m1) in
  let m2 := run h2 (fst (new_node ci s m1)) in let n' := snd (new_node ci' s' m2) in
  (stored_name ci s = stored_name ci' s' -> n' = n /\ fst (new_node ci' s' m2) = m2) /\
  (stored_name ci s <> stored_name ci' s' -> addr n' <> addr n /\ nnum n' <> nnum n).
Proof.
  intros h1 ci s h2 ci' s' m1 n m2 n'.
  pose proof (run_built h1 empty_map [] empty_built) as B1. fold m1 in B1.
  destruct (new_built m1 _ ci s B1) as (B1' & F1 & _). fold n in F1.
  set (k := stored_name ci s) in *. set (k' := stored_name ci' s') in *.
  assert (Keep : forall h m ks, built m ks -> forall q x, find (entries m) q = Some (Some x) -> find (entries (run h m)) q = Some (Some x)).
  { induction h as [|[c y|c y] h IH]; intros m ks B q x F; cbn [run step]; [assumption| |now apply (IH m ks)].
    destruct (new_built m ks c y B) as (B' & _ & Same). apply (IH _ _ B').
    unfold new_node. change (if c then lower y else y) with (stored_name c y). unfold ref.
    destruct (find (entries m) (stored_name c y)) as [[z|]|] eqn:E; cbn [fst entries]; [assumption|now elim (built_null _ _ (stored_name c y) B)|].
    rewrite put_put. rewrite find_put_other; [assumption|]. intros ->. congruence. }
  pose proof (Keep h2 _ _ B1' _ _ F1) as F2. fold m2 in F2.
  pose proof (run_built h2 _ _ B1') as B2. fold m2 in B2.
  destruct (new_built m2 _ ci' s' B2) as (B2' & F2' & Same). fold n' k' in F2', Same. split.
  - intros E. rewrite <- E in *. assert (X : fst (new_node ci' s' m2) = m2) by (apply Same; congruence). rewrite X in F2'. split; [congruence|assumption].
  - intros N. assert (F3 : find (entries (fst (new_node ci' s' m2))) k = Some (Some n)).
    { apply (Keep [New ci' s'] m2 _ B2). assumption. }
    rewrite (built_find _ _ _ B2') in F2'. rewrite (built_find _ _ _ B2') in F3.
    set (ks := if keq k' (str "0") then _ else _) in *. 
    destruct (keq k (str "0")) as [K|K]; destruct (keq k' (str "0")) as [K'|K']; try congruence.
    + injection F3 as <-. destruct (number_find _ _ _ _ F2') as (i & Ei & ->). cbn [addr nnum ground_node]. split; lia.
    + injection F2' as <-. destruct (number_find _ _ _ _ F3) as (i & Ei & ->). cbn [addr nnum ground_node]. split; lia.
    + destruct (number_find _ _ _ _ F2') as (i & Ei & ->). destruct (number_find _ _ _ _ F3) as (j & Ej & ->). cbn [addr nnum].
      assert (i <> j) by congruence. split; lia.
Qed.
Print Assumptions C12_same_name_same_node.

(* lookup finds exactly the created names (and ground), by exact spelling or, when the option says
   so, by lower case; it returns the node creation returned *)
Theorem C12_lookup : forall h ci s, let m := run h empty_map in let names := str "0" :: created h [] in
  (forall n, lookup ci s m = Some n -> In (nname n) names /\ (nname n = s \/ ci = true /\ nname n = map to_lower s) /\
      snd (new_node false (nname n) m) = n) /\
  (lookup ci s m = None <-> ~ In s names /\ (ci = true -> ~ In (map to_lower s) names)) /\
  (In s names -> exists n, lookup ci s m = Some n /\ nname n = s).
Proof.
  intros h ci s m names. pose proof (run_built h empty_map [] empty_built) as B. fold m in B.
  assert (F : forall k, match find (entries m) k with Some (Some n) => In k names /\ nname n = k /\ snd (new_node false k m) = n | Some None => False | None => ~ In k names end).
  { intros k. destruct (find (entries m) k) as [[n|]|] eqn:E.
    - assert (A : In k names /\ nname n = k).
      { rewrite (built_find _ _ _ B) in E. destruct (keq k (str "0")) as [->|N].
        + injection E as <-. split; [now left|reflexivity].
        + destruct (number_find _ _ _ _ E) as (i & Ei & ->). split; [right; eapply nth_error_In, Ei|reflexivity]. }
      split; [apply A|]. split; [apply A|]. unfold new_node, ref. rewrite E. reflexivity.
    - now elim (built_null _ _ k B).
    - rewrite (built_find _ _ _ B) in E. destruct (keq k (str "0")) as [->|N]; [discriminate|]. apply find_none in E. rewrite number_keys in E.
      intros [X|X]; [now apply N|now apply E]. }
  unfold lookup. pose proof (F s) as Fs. pose proof (F (lower s)) as Fl. change (map to_lower s) with (lower s).
  destruct (find (entries m) s) as [[n|]|]; [|contradiction|].
  - destruct Fs as (A & C & D). split; [|split].
    + intros n0 [= <-]. rewrite C. auto.
    + split; [discriminate|intros [X _]; contradiction].
    + intros _. now exists n.
  - destruct ci.
    + destruct (find (entries m) (lower s)) as [[n|]|]; [|contradiction|].
      * destruct Fl as (A & C & D). split; [|split].
        { intros n0 [= <-]. rewrite C. auto. }
        { split; [discriminate|intros [_ X]; exfalso; now apply X]. }
        { intros X; contradiction. }
      * split; [discriminate|]. split; [tauto|intros X; contradiction].
    + split; [discriminate|]. split; [split; [intros _; split; [assumption|discriminate]|reflexivity]|intros X; contradiction].
Qed.
Print Assumptions C12_lookup.

Example C12_case : let h := [New false (str "in"); Look true (str "OUT"); New true (str "Out"); New false (str "in"); New false (str "0")] in
  created h [] = [str "in"; str "out"] /\ option_map nnum (lookup true (str "OUT") (run h empty_map)) = Some 2 /\
  nnum (snd (new_node false (str "x") (run h empty_map))) = 3.
Proof. vm_compute. repeat split. Qed.
(* with case_insensitive on, a name created with capitals while the option was off and its lower
   case spelling are different nodes *)
Theorem C12_case_option_change_refuted : exists s, let m := run [New false s] empty_map in
  exists n, lookup true s m = Some n /\ snd (new_node true s m) <> n.
Proof. exists (str "A"). vm_compute. eexists. split; [reflexivity|]. intros X. discriminate X. Qed.
Print Assumptions C12_case_option_change_refuted.
