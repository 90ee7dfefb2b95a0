(* C22: plugin registration *)
Require Import ZArith List Ascii String Bool Lia.
Require Import Verif.Loops Verif.Wmatch_Model Verif.CS_Model Verif.Decimal_Text Verif.P_Number Verif.AMap Verif.Dispatcher_Model.
Import ListNotations.

(* ---- vocabulary ---- *)
Inductive op := Install (s : key) (p : nat) | Uninstall (p : nat) | Find (ci : bool) (s : key).
Definition step (o : op) (d : option table) : option (option table) :=
  match o with
  | Install s p => install s (Some p) d
  | Uninstall p => uninstall (Some p) d
  | Find ci s => Some (fst (lookup ci s d))
  end.
(* histories are written newest first *)
Fixpoint run (h : list op) : option (option table) :=
  match h with [] => Some None | o :: h' => let* d := run h' in step o d end.

(* n is one of the '|'-separated parts of s *)
Definition is_name (n s : key) : Prop :=
  ~ In "|"%char n /\ exists a b, s = a ++ n ++ b /\ (a = [] \/ exists a', a = a' ++ ["|"%char]) /\ (b = [] \/ exists b', b = "|"%char :: b').

(* what name n should give after history h *)
Inductive current : list op -> key -> ptr -> Prop :=
| cur_start : forall n, current [] n None
| cur_install : forall h n s p, is_name n s -> current (Install s p :: h) n (Some p)
| cur_install_other : forall h n s p v, ~ is_name n s -> current h n v -> current (Install s p :: h) n v
| cur_uninstall : forall h n p, current h n (Some p) -> current (Uninstall p :: h) n None
| cur_uninstall_other : forall h n p v, current h n v -> v <> Some p -> current (Uninstall p :: h) n v
| cur_find : forall h n ci s v, current h n v -> current (Find ci s :: h) n v.

(* no ',' in installed name lists; something is installed before anything is uninstalled *)
Fixpoint proper (h : list op) : Prop :=
  match h with
  | [] => True
  | Install s _ :: h' => ~ In ","%char s /\ proper h'
  | Uninstall _ :: h' => (exists s p, In (Install s p) h') /\ proper h'
  | Find _ _ :: h' => proper h'
  end.

Definition found (d : option table) (n : key) : ptr := match d with Some m => get m n | None => None end.

(* ---- proofs ---- *)
Lemma split_in : forall s acc n, ~ In "|"%char acc ->
  (In n (split_bar acc s) <-> (exists b, s = b /\ ~ In "|"%char n /\ exists x y, n = acc ++ x /\ s = x ++ y /\ (y = [] \/ exists y', y = "|"%char :: y')) \/
     ~ In "|"%char n /\ exists a y, s = a ++ "|"%char :: n ++ y /\ (y = [] \/ exists y', y = "|"%char :: y')).
Proof.
  induction s as [|c s IH]; intros acc n Ha; cbn [split_bar].
  - split.
    + intros [<-|[]]. left. exists []. split; [reflexivity|]. split; [assumption|]. exists [], []. rewrite app_nil_r. auto.
    + intros [(b & _ & _ & x & y & -> & E & _)|(_ & a & y & E & _)].
      * destruct x; [left; now rewrite app_nil_r|discriminate].
      * destruct a; discriminate.
  - destruct (Ascii.eqb_spec c "|") as [->|N].
    + split.
      * intros [<-|H].
        { left. eexists. split; [reflexivity|]. split; [assumption|]. exists [], ("|"%char :: s). rewrite app_nil_r. split; [reflexivity|]. split; [reflexivity|]. right. now exists s. }
        { apply IH in H; [|intros []]. right. destruct H as [(_ & _ & Hn & x & y & -> & -> & Hy)|(Hn & a & y & -> & Hy)].
          - split; [assumption|]. now exists [], y.
          - split; [assumption|]. now exists ("|"%char :: a), y. }
      * intros [(b & _ & Hn & x & y & -> & E & Hy)|(Hn & a & y & E & Hy)].
        { destruct x as [|c x].
          - left. now rewrite app_nil_r.
          - exfalso. injection E as <- _. apply Hn, in_or_app. right. now left. }
        { right. apply IH; [intros []|]. destruct a as [|c a]; cbn in E; injection E as E.
          - left. exists s. split; [reflexivity|]. split; [assumption|]. now exists n, y.
          - right. split; [assumption|]. now exists a, y. }
    + rewrite IH by (intros X; apply in_app_or in X; destruct X as [X|[X|[]]]; [now apply Ha|now apply N]). split.
      * intros [(b & _ & Hn & x & y & -> & -> & Hy)|(Hn & a & y & -> & Hy)].
        { left. eexists. split; [reflexivity|]. split; [assumption|]. exists (c :: x), y. rewrite <- app_assoc. auto. }
        { right. split; [assumption|]. now exists (c :: a), y. }
      * intros [(b & _ & Hn & x & y & -> & E & Hy)|(Hn & a & y & E & Hy)].
        { destruct x as [|c' x]; cbn in E.
          - exfalso. destruct Hy as [->|(y' & ->)]; [discriminate|]. injection E as E _. congruence.
          - injection E as <- ->. left. eexists. split; [reflexivity|]. split; [assumption|]. exists x, y. rewrite <- app_assoc. auto. }
        { destruct a as [|c' a]; cbn in E; injection E as -> ->; [now elim N|]. right. split; [assumption|]. now exists a, y. }
Qed.
Lemma split_names : forall s n, In n (split_bar [] s) <-> is_name n s.
Proof.
  intros s n. rewrite split_in by (intros []). unfold is_name. split.
  - intros [(b & _ & Hn & x & y & -> & -> & Hy)|(Hn & a & y & -> & Hy)].
    + split; [assumption|]. exists [], y. auto.
    + split; [assumption|]. exists (a ++ ["|"%char]), y. rewrite <- app_assoc. split; [reflexivity|]. split; [right; now exists a|assumption].
  - intros (Hn & a & b & -> & Ha & Hb). destruct Ha as [->|(a' & ->)].
    + left. eexists. split; [reflexivity|]. split; [assumption|]. now exists n, b.
    + right. split; [assumption|]. exists a', b. rewrite <- app_assoc. auto.
Qed.

Lemma get_put : forall m k v k2, get (put m k v) k2 = if keq k2 k then v else get m k2.
Proof. intros. unfold get. rewrite find_put. destruct (keq k2 k); reflexivity. Qed.
Lemma at_key_ok : forall m k, exists m', at_key m k = (m', get m k) /\ (forall k2, get m' k2 = get m k2) /\ (get m k <> None -> m' = m).
Proof.
  intros m k. unfold at_key, get. destruct (find m k) as [p|] eqn:E.
  - exists m. repeat split.
  - exists (put m k None). split; [reflexivity|]. split; [|intros X; now elim X]. intros k2. rewrite find_put. destruct (keq k2 k) as [->|]; [now rewrite E|reflexivity].
Qed.
Lemma show_inj : forall a b, (0 <= a)%Z -> (0 <= b)%Z -> show a = show b -> a = b.
Proof.
  intros a b Ha Hb E. unfold show in E. destruct (Z.ltb_spec a 0); [lia|]. destruct (Z.ltb_spec b 0); [lia|].
  destruct (show_nat_ok a Ha) as (_ & <- & _). destruct (show_nat_ok b Hb) as (_ & <- & _). now rewrite E.
Qed.
Lemma stash_ok : forall fuel m name save ii, (0 <= ii)%Z -> (exists j, (0 <= j)%Z /\ save = stash_name name j) ->
  (exists j, ii <= j < ii + Z.of_nat fuel - 1 /\ get m (stash_name name j) = None)%Z ->
  exists m' k, stash fuel m name save ii = Some (m', stash_name name k) /\ (forall k2, get m' k2 = get m k2) /\ get m (stash_name name k) = None.
Proof.
  induction fuel as [|fuel IH]; intros m name save ii Hi (j0 & Hj0 & ->) (j & Hj & Ej); [lia|]. cbn [stash].
  destruct (at_key_ok m (stash_name name j0)) as (m' & E & G & S). rewrite E. destruct (get m (stash_name name j0)) as [q|] eqn:E0.
  - rewrite S by discriminate. destruct fuel as [|fuel]; [lia|].
    destruct (Z.eq_dec j ii) as [->|N].
    + cbn [stash]. destruct (at_key_ok m (stash_name name ii)) as (m2 & E2 & G2 & _). rewrite E2, Ej. exists m2, ii. auto.
    + apply IH; [lia|exists ii; auto|]. exists j. split; [lia|assumption].
  - exists m', j0. auto.
Qed.
(* a table cannot have all the stash names taken *)
Lemma some_free : forall (m : table) name, exists j, (0 <= j < Z.of_nat (List.length m) + 1)%Z /\ get m (stash_name name j) = None.
Proof.
  intros m name. destruct (Forall_Exists_dec (fun i => get m (stash_name name (Z.of_nat i)) <> None)) with (l := seq 0 (S (List.length m))) as [A|X].
  - intros i. destruct (get m (stash_name name (Z.of_nat i))); [left; discriminate|right; intros X; now apply X].
  - exfalso. assert (I : incl (map (fun i => stash_name name (Z.of_nat i)) (seq 0 (S (List.length m)))) (keys m)).
    { intros k Hk. apply in_map_iff in Hk. destruct Hk as (i & <- & Hi). rewrite Forall_forall in A. specialize (A i Hi). unfold get in A.
      destruct (in_dec keq (stash_name name (Z.of_nat i)) (keys m)) as [Y|N]; [assumption|]. apply find_none in N. rewrite N in A. now elim A. }
    apply NoDup_incl_length in I.
    + rewrite map_length, seq_length in I. unfold keys in I. rewrite map_length in I. lia.
    + assert (G : forall l, NoDup l -> NoDup (map (fun i => stash_name name (Z.of_nat i)) l)).
      { intros l Hl. induction Hl as [|i l Hi _ IHl]; cbn; constructor; [|assumption]. intros Y. apply in_map_iff in Y. destruct Y as (i' & E & Hi').
        unfold stash_name in E. apply app_inv_head in E. injection E as E. apply show_inj in E; [|lia|lia]. apply Nat2Z.inj in E. now subst i'. }
      apply G, seq_NoDup.
  - apply Exists_exists in X. destruct X as (i & Hi & X). apply in_seq in Hi. exists (Z.of_nat i). split; [lia|].
    destruct (get m (stash_name name (Z.of_nat i))); [exfalso; apply X; discriminate|reflexivity].
Qed.

(* k' is k or k with something after a colon *)
Definition stashed (k k' : key) : Prop := k' = k \/ exists w, k' = k ++ ":"%char :: w.
Lemma stashed_trans : forall a b c, stashed a b -> stashed b c -> stashed a c.
Proof.
  intros a b c [->|[w ->]] [->|[v ->]]; [now left|right; now exists v|right; now exists w|].
  right. exists (w ++ ":"%char :: v). now rewrite <- app_assoc.
Qed.
Lemma name_not_stash : forall name j, stash_name name j <> name.
Proof. intros name j E. apply (f_equal (@List.length ascii)) in E. unfold stash_name in E. rewrite app_length in E. cbn in E. lia. Qed.

Lemma install_one_ok : forall p name m, exists m', install_one p name m = Some m' /\ get m' name = p /\
  (forall k, k <> name -> (exists j, k = stash_name name j) \/ get m' k = get m k) /\
  (forall k, k <> name -> get m k <> None -> get m' k = get m k) /\
  (name <> [] -> forall q, get m name = Some q -> exists k', stashed name k' /\ k' <> name /\ get m' k' = Some q).
Proof.
  intros p name m. unfold install_one. destruct name as [|c name].
  - exists (put m [] p). split; [reflexivity|]. split; [rewrite get_put; destruct (keq [] []); [reflexivity|contradiction]|].
    split; [intros k N; right; rewrite get_put; destruct (keq k []); [contradiction|reflexivity]|].
    split; [intros k N _; rewrite get_put; destruct (keq k []); [contradiction|reflexivity]|intros X; now elim X].
  - set (nm := c :: name). destruct (at_key_ok m nm) as (m1 & E1 & G1 & S1). rewrite E1. destruct (get m nm) as [q|] eqn:Eq.
    + rewrite S1 in * by discriminate. destruct (some_free m nm) as (j & Hj & Ej).
      destruct (stash_ok (List.length m + 3) m nm (stash_name nm 0) 0) as (m2 & k & E2 & G2 & Ek); [lia|exists 0%Z; split; [lia|reflexivity]|exists j; split; [lia|assumption]|].
      rewrite E2. cbn [bind]. destruct (at_key_ok m2 nm) as (m3 & E3 & G3 & _). rewrite E3.
      exists (put (put m3 (stash_name nm k) (get m2 nm)) nm p). split; [reflexivity|].
      split; [rewrite get_put; destruct (keq nm nm); [reflexivity|contradiction]|]. split; [|split].
      * intros k2 N. rewrite !get_put. destruct (keq k2 nm); [contradiction|]. destruct (keq k2 (stash_name nm k)) as [->|]; [left; now exists k|right]. now rewrite G3, G2.
      * intros k2 N N2. rewrite !get_put. destruct (keq k2 nm); [contradiction|]. destruct (keq k2 (stash_name nm k)) as [->|]; [contradiction|]. now rewrite G3, G2.
      * intros _ q' Eq'. exists (stash_name nm k). split; [right; exists (show k); reflexivity|]. split; [apply name_not_stash|]. rewrite !get_put.
        destruct (keq (stash_name nm k) nm) as [X|_]; [now elim (name_not_stash nm k)|]. destruct (keq (stash_name nm k) (stash_name nm k)); [|contradiction].
        rewrite G2, Eq. exact Eq'.
    + exists (put m1 nm p). split; [reflexivity|]. split; [rewrite get_put; destruct (keq nm nm); [reflexivity|contradiction]|].
      split; [intros k N; right; rewrite get_put; destruct (keq k nm); [contradiction|now rewrite G1]|].
      split; [intros k N _; rewrite get_put; destruct (keq k nm); [contradiction|now rewrite G1]|intros _ q X; discriminate].
Qed.

Lemma colon_stash : forall n name j, ~ In ":"%char n -> n <> stash_name name j.
Proof. intros n name j H ->. apply H. unfold stash_name. apply in_or_app. right. now left. Qed.

Lemma install_all_ok : forall p names m, exists m', install_all p names m = Some m' /\
  (forall n, ~ In ":"%char n -> get m' n = if in_dec keq n names then p else get m n) /\
  (forall n, ~ In n names -> get m n <> None -> get m' n = get m n) /\
  (~ In [] names -> forall k q, get m k = Some q -> exists k', stashed k k' /\ get m' k' = Some q).
Proof.
  intros p names. induction names as [|n names IH]; intros m; cbn [install_all].
  - exists m. split; [reflexivity|]. split; [intros k Hk; destruct (in_dec keq k []) as [[]|]; reflexivity|]. split; [reflexivity|]. intros _ k q E. exists k. split; [now left|assumption].
  - destruct (install_one_ok p n m) as (m1 & E1 & P1 & O1 & N1 & S1). rewrite E1. cbn [bind]. destruct (IH m1) as (m2 & E2 & P2 & N2 & S2).
    exists m2. split; [exact E2|]. split; [|split].
    + intros k Hk. rewrite P2 by assumption. destruct (in_dec keq k names) as [I|I]; destruct (in_dec keq k (n :: names)) as [J|J]; try reflexivity.
      * exfalso. apply J. now right.
      * destruct J as [<-|J]; [exact P1|contradiction].
      * assert (N : k <> n) by (intros ->; apply J; now left). destruct (O1 k N) as [(j & ->)|E]; [|exact E]. now elim (colon_stash _ n j Hk).
    + intros k Hk Hn. rewrite N2; [apply N1; [intros ->; apply Hk; now left|assumption]|intros X; apply Hk; now right|].
      rewrite N1; [assumption|intros ->; apply Hk; now left|assumption].
    + intros Hne k q Eq. assert (Ne : n <> []) by (intros ->; apply Hne; now left). assert (Hne' : ~ In [] names) by (intros X; apply Hne; now right).
      destruct (keq k n) as [->|N].
      * destruct (S1 Ne q Eq) as (k1 & T1 & _ & G1). destruct (S2 Hne' k1 q G1) as (k2 & T2 & G2). exists k2. split; [now apply stashed_trans with k1|assumption].
      * assert (G1 : get m1 k = Some q) by (rewrite N1; [assumption|assumption|congruence]). now apply S2.
Qed.

Lemma uninstall_get : forall a (m : table) n, get (map (fun kv => (fst kv, match snd kv with Some b => if Nat.eqb a b then None else Some b | None => None end)) m) n =
  match get m n with Some b => if Nat.eqb a b then None else Some b | None => None end.
Proof.
  intros a m n. unfold get. induction m as [|[k v] m IH]; cbn; [reflexivity|]. destruct (keq n k); [destruct v; reflexivity|exact IH].
Qed.
Lemma lookup_ok : forall ci s d, let (d', p) := lookup ci s d in
  (forall n, found d' n = found d n) /\ (d = None <-> d' = None) /\ p = match found d s with Some q => Some q | None => if ci then found d (map to_lower s) else None end.
Proof.
  intros ci s [m|]; cbn [lookup found].
  - destruct (at_key_ok m s) as (m1 & E1 & G1 & _). rewrite E1. destruct (get m s) as [q|] eqn:Eq.
    + split; [exact G1|]. split; [split; discriminate|reflexivity].
    + destruct ci.
      * destruct (at_key_ok m1 (lower s)) as (m2 & E2 & G2 & _). rewrite E2. split; [intros n; cbn; now rewrite G2|]. split; [split; discriminate|]. rewrite G1. reflexivity.
      * split; [exact G1|]. split; [split; discriminate|reflexivity].
  - split; [reflexivity|]. split; [split; reflexivity|]. destruct ci; reflexivity.
Qed.
Lemma no_comma : forall s, ~ In ","%char s -> existsb (Ascii.eqb ",") s = false.
Proof.
  intros s H. destruct (existsb (Ascii.eqb ",") s) eqn:E; [|reflexivity]. apply existsb_exists in E. destruct E as (c & Hc & Ec). apply Ascii.eqb_eq in Ec. subst c. contradiction.
Qed.

Lemma run_ok : forall h, proper h -> exists d, run h = Some d /\ ((exists s p, In (Install s p) h) -> d <> None) /\
  (forall n v, ~ In ":"%char n -> current h n v -> found d n = v).
Proof.
  induction h as [|o h IH]; intros Hp; cbn [run].
  - exists None. split; [reflexivity|]. split; [intros (? & ? & [])|]. intros n v _ C. now inversion C.
  - destruct o as [s p|p|ci s]; cbn [proper] in Hp.
    + destruct Hp as [Hc Hp]. destruct (IH Hp) as (d & E & T & F). rewrite E. cbn [bind step]. unfold install. rewrite no_comma by assumption.
      destruct (install_all_ok (Some p) (split_bar [] s) (match d with Some m => m | None => [] end)) as (m & Em & P & N & _). rewrite Em. cbn [bind].
      exists (Some m). split; [reflexivity|]. split; [discriminate|]. intros n v Hn C. cbn [found]. rewrite P by assumption.
      destruct (in_dec keq n (split_bar [] s)) as [I|I]; rewrite split_names in I.
      * inversion C; subst; [reflexivity|contradiction].
      * inversion C; subst; [contradiction|]. rewrite <- (F n v Hn) by assumption. destruct d; reflexivity.
    + destruct Hp as [Hi Hp]. destruct (IH Hp) as (d & E & T & F). rewrite E. cbn [bind step uninstall]. specialize (T Hi). destruct d as [m|]; [|contradiction].
      cbn [bind]. eexists. split; [reflexivity|]. split; [discriminate|]. intros n v Hn C. cbn [found]. rewrite uninstall_get.
      inversion C as [| | |h' n' p' C'|h' n' p' v' C' Hv|]; subst.
      * apply (F n _ Hn) in C'. cbn [found] in C'. rewrite C', Nat.eqb_refl. reflexivity.
      * apply (F n _ Hn) in C'. cbn [found] in C'. rewrite C'. destruct v as [b|]; [|reflexivity]. destruct (Nat.eqb_spec p b) as [->|]; [contradiction|reflexivity].
    + destruct (IH Hp) as (d & E & T & F). rewrite E. cbn [bind step]. pose proof (lookup_ok ci s d) as L. destruct (lookup ci s d) as [d' q]. cbn [fst].
      destruct L as (L1 & L2 & _). exists d'. split; [reflexivity|]. split.
      * intros (s0 & p0 & [X|X]); [discriminate|]. intros Y. apply L2 in Y. apply T; [now exists s0, p0|assumption].
      * intros n v Hn C. inversion C; subst. rewrite L1. now apply F.
Qed.
Lemma is_name_dec : forall n s, is_name n s \/ ~ is_name n s.
Proof. intros n s. rewrite <- split_names. destruct (in_dec keq n (split_bar [] s)); auto. Qed.
Lemma current_total : forall h n, exists v, current h n v.
Proof.
  induction h as [|o h IH]; intros n; [exists None; constructor|]. destruct (IH n) as (v & C). destruct o as [s p|p|ci s].
  - destruct (is_name_dec n s); [exists (Some p); now constructor|exists v; now constructor].
  - destruct v as [b|]; [destruct (Nat.eq_dec b p) as [->|N]|].
    + exists None. now constructor.
    + exists (Some b). constructor; [assumption|congruence].
    + exists None. constructor; [assumption|discriminate].
  - exists v. now constructor.
Qed.

(* ---- theorems ---- *)

(* after any proper history every lookup is defined and, for names without a colon, gives the object
   of the latest install of the name unless that object was uninstalled since; with the case
   insensitive option the lower case spelling is tried second *)
Theorem C22_lookup_latest : forall h ci s v1 v2, proper h -> ~ In ":"%char s -> ~ In ":"%char (map to_lower s) ->
  current h s v1 -> current h (map to_lower s) v2 ->
  exists d d', run h = Some d /\ lookup ci s d = (d', match v1 with Some q => Some q | None => if ci then v2 else None end) /\
    forall n, found d' n = found d n.
Proof.
  intros h ci s v1 v2 Hp H1 H2 C1 C2. destruct (run_ok h Hp) as (d & E & _ & F). pose proof (lookup_ok ci s d) as L. destruct (lookup ci s d) as [d' q] eqn:El.
  destruct L as (L1 & _ & ->). exists d, d'. split; [exact E|]. split; [|exact L1]. rewrite El, (F _ _ H1 C1), (F _ _ H2 C2). reflexivity.
Qed.
Print Assumptions C22_lookup_latest.

(* installing never loses an object: whatever was reachable under a name stays reachable under that
   name or under that name with a colon part added; names not listed keep their objects *)
Theorem C22_install_keeps_objects : forall d s p, ~ In ","%char s -> ~ is_name [] s ->
  exists d', install s (Some p) d = Some d' /\
    (forall n, is_name n s -> ~ In ":"%char n -> found d' n = Some p) /\
    (forall n, ~ is_name n s -> found d n <> None -> found d' n = found d n) /\
    (forall k q, found d k = Some q -> exists k', (k' = k \/ exists w, k' = k ++ ":"%char :: w) /\ found d' k' = Some q).
Proof.
  intros d s p Hc He. unfold install. rewrite no_comma by assumption.
  destruct (install_all_ok (Some p) (split_bar [] s) (match d with Some m => m | None => [] end)) as (m & Em & P & N & S). rewrite Em. cbn [bind].
  exists (Some m). split; [reflexivity|]. rewrite <- (split_names s []) in He. split; [|split].
  - intros n Hn Hl. cbn [found]. rewrite P by assumption. apply split_names in Hn. destruct (in_dec keq n (split_bar [] s)); [reflexivity|contradiction].
  - intros n Hn Hv. cbn [found]. rewrite N; [destruct d; reflexivity|now rewrite split_names|destruct d; [exact Hv|now elim Hv]].
  - intros k q E. destruct d as [m0|]; [|discriminate E]. apply (S He k q E).
Qed.
Print Assumptions C22_install_keeps_objects.

(* an uninstalled object is reachable under no name at all; others are untouched *)
Theorem C22_uninstall_removes : forall m p, exists m', uninstall (Some p) (Some m) = Some (Some m') /\
  (forall n, found (Some m') n <> Some p) /\ (forall n q, q <> p -> (found (Some m') n = Some q <-> found (Some m) n = Some q)).
Proof.
  intros m p. eexists. split; [reflexivity|]. cbn [found]. split.
  - intros n. rewrite uninstall_get. destruct (get m n) as [b|]; [|discriminate]. destruct (Nat.eqb_spec p b) as [->|N]; [discriminate|congruence].
  - intros n q N. rewrite uninstall_get. destruct (get m n) as [b|]; [|reflexivity]. destruct (Nat.eqb_spec p b) as [->|X]; [|reflexivity]. split; [discriminate|congruence].
Qed.
Print Assumptions C22_uninstall_removes.

Example C22_case : let h := [Find true (str "AC"); Install (str "ac") 3; Uninstall 2; Install (str "tr|transient") 2; Install (str "ac|op") 1] in
  proper h /\ current h (str "ac") (Some 3) /\ current h (str "AC") None /\
  (let* d := run h in Some (snd (lookup true (str "AC") d), snd (lookup false (str "ac:0") d), snd (lookup true (str "tr") d))) = Some (Some 3, Some 1, None).
Proof.
  cbv zeta. split; [cbn; repeat split; try (intuition discriminate); exists (str "ac|op"), 1; tauto|]. split; [|split].
  - apply cur_find, cur_install. rewrite <- split_names. now left.
  - assert (N : forall s, ~ In (str "AC") (split_bar [] s) -> ~ is_name (str "AC") s) by (intros s; now rewrite split_names).
    apply cur_find, cur_install_other; [apply N; vm_compute; intuition discriminate|]. apply cur_uninstall_other; [|discriminate].
    apply cur_install_other; [apply N; vm_compute; intuition discriminate|]. apply cur_install_other; [apply N; vm_compute; intuition discriminate|]. constructor.
  - vm_compute. reflexivity.
Qed.

(* uninstalling a replacement does not bring the stashed object back under its name *)
Theorem C22_uninstall_restores_refuted : exists h, proper h /\ (let* d := run h in Some (found d (str "ac"), found d (str "ac:0"))) = Some (None, Some 1).
Proof.
  exists [Uninstall 2; Install (str "ac") 2; Install (str "ac") 1]. split; [|vm_compute; reflexivity].
  cbn; repeat split; try (intuition discriminate). exists (str "ac"), 1. tauto.
Qed.
Print Assumptions C22_uninstall_restores_refuted.
(* the empty name is not ignored: it is registered, and replaced without being stashed *)
Theorem C22_empty_name_ignored_refuted : exists h, proper h /\ (let* d := run h in Some (found d [])) = Some (Some 2) /\
  (let* d := run h in Some (existsb (fun kv => match snd kv with Some q => Nat.eqb q 1 | None => false end) (match d with Some m => m | None => [] end))) = Some false.
Proof.
  exists [Install (str "b|") 2; Install [] 1]. split; [cbn; repeat split; intuition discriminate|]. split; vm_compute; reflexivity.
Qed.
Print Assumptions C22_empty_name_ignored_refuted.
