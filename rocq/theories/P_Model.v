(* C80: the model of a device is the nearest one of its name, or the first of its bins that fits *)
Require Import String Ascii List Bool Arith Lia DecimalString DecimalNat.
Require Import Verif.Wmatch_Model Verif.CS_Model Verif.CS_Word.
Require Verif.Delete_Model Verif.Delete_Proofs.
Require Import Verif.Model_Model.
Import ListNotations.
Local Open Scope list_scope.

(* ---- vocabulary ---- *)
Definition named (ci : bool) (n : list ascii) (c : card) : Prop := Forall2 (same_char ci) (label c) n.
(* c is the first card of that name in the list *)
Definition first (ci : bool) (n : list ascii) (sc : list card) (c : card) : Prop :=
  exists pre post, sc = pre ++ c :: post /\ named ci n c /\ Forall (fun x => ~ named ci n x) pre.
Definition nobody (ci : bool) (n : list ascii) (sc : list card) : Prop := Forall (fun x => ~ named ci n x) sc.
(* the name of bin k: the number in decimal, as in the standard library *)
Definition bin (nm : list ascii) (k : nat) : list ascii := nm ++ "."%char :: list_ascii_of_string (NilZero.string_of_uint (Nat.to_uint k)).
Definition model_that_fits (c : card) : Prop := kind c = AModel true.
(* the list offers c: under the plain name; or under the lowest numbered bin that fits, if all below it are there *)
Definition offers (ci : bool) (nm : list ascii) (sc : list card) (c : card) : Prop :=
  first ci nm sc c \/
  (nobody ci nm sc /\ exists k, 1 <= k /\ first ci (bin nm k) sc c /\ model_that_fits c /\
     forall j, 1 <= j < k -> exists b, first ci (bin nm j) sc b /\ ~ model_that_fits b).
Definition offers_none (ci : bool) (nm : list ascii) (sc : list card) : Prop := forall c, ~ offers ci nm sc c.

(* the nearest list, going outwards, that offers one *)
Inductive nearest (ci : bool) (nm : list ascii) : list (list card) -> card -> Prop :=
| n_here : forall sc rest c, offers ci nm sc c -> nearest ci nm (sc :: rest) c
| n_out : forall sc rest c, offers_none ci nm sc -> nearest ci nm rest c -> nearest ci nm (sc :: rest) c.

(* ---- lemmas ---- *)
Lemma named_ok : forall ci n c, Delete_Model.same_name ci (label c) n = true <-> named ci n c.
Proof. intros. apply Delete_Proofs.same_name_ok. Qed.
Lemma not_named : forall ci n c, Delete_Model.same_name ci (label c) n = false <-> ~ named ci n c.
Proof. intros. rewrite <- named_ok. now rewrite not_true_iff_false. Qed.
Lemma in_first : forall ci n sc c, in_scope ci n sc = Some c -> first ci n sc c.
Proof.
  intros ci n sc. induction sc as [|x sc IH]; intros c H; [discriminate H|]. cbn in H. destruct (Delete_Model.same_name ci (label x) n) eqn:E.
  - injection H as ->. exists [], sc. split; [reflexivity|]. split; [now apply named_ok|constructor].
  - destruct (IH c H) as (pre & post & -> & N & F). exists (x :: pre), post. split; [reflexivity|]. split; [exact N|]. constructor; [now apply not_named|exact F].
Qed.
Lemma in_none : forall ci n sc, in_scope ci n sc = None -> nobody ci n sc.
Proof.
  intros ci n sc. induction sc as [|x sc IH]; intros H; [constructor|]. cbn in H. destruct (Delete_Model.same_name ci (label x) n) eqn:E; [discriminate H|].
  constructor; [now apply not_named|now apply IH].
Qed.
Lemma first_in : forall ci n sc c, first ci n sc c -> in_scope ci n sc = Some c.
Proof.
  intros ci n sc c (pre & post & -> & N & F). induction F as [|x pre H _ IH]; cbn.
  - apply named_ok in N. now rewrite N.
  - apply not_named in H. now rewrite H.
Qed.
Lemma first_fun : forall ci n sc c d, first ci n sc c -> first ci n sc d -> c = d.
Proof. intros ci n sc c d H K. apply first_in in H. apply first_in in K. congruence. Qed.
Lemma first_somebody : forall ci n sc c, first ci n sc c -> nobody ci n sc -> False.
Proof. intros ci n sc c (pre & post & -> & N & _) K. apply Forall_app in K. destruct K as [_ K]. inversion_clear K as [|? ? X _]. contradiction. Qed.
Lemma fits_ok : forall c, fits c = true <-> model_that_fits c.
Proof. intros [l i [[]|]]; unfold model_that_fits; cbn; split; congruence. Qed.
Lemma fits_not : forall c, fits c = false <-> ~ model_that_fits c.
Proof. intros c. rewrite <- fits_ok. now rewrite not_true_iff_false. Qed.
Lemma extended_bin : forall nm k, extended nm k = bin nm k.
Proof. reflexivity. Qed.

(* different bins have different names *)
Lemma low_digits : forall d, Forall (fun c => to_lower c = c) (list_ascii_of_string (NilEmpty.string_of_uint d)).
Proof. induction d; cbn [NilEmpty.string_of_uint list_ascii_of_string]; constructor; try assumption; reflexivity. Qed.
Lemma low_number : forall k, Forall (fun c => to_lower c = c) (number k).
Proof. intros k. unfold number. destruct (Nat.to_uint k) eqn:E; unfold NilZero.string_of_uint; try apply low_digits. repeat constructor. Qed.
Lemma low_map : forall ci l, Forall (fun c => to_lower c = c) l -> map (fix_case ci) l = l.
Proof. intros ci l F. induction F as [|c l H _ IH]; [reflexivity|]. cbn [map]. rewrite IH. f_equal. unfold fix_case. destruct ci; [exact H|reflexivity]. Qed.
Lemma to_uint_some : forall k, Nat.to_uint k <> Decimal.Nil.
Proof.
  intros k H. pose proof (Unsigned.of_to k) as E. rewrite H in E. cbn in E. subst k. discriminate H.
Qed.
Lemma number_inj : forall j k, number j = number k -> j = k.
Proof.
  intros j k H. unfold number in H. apply (f_equal string_of_list_ascii) in H. rewrite !string_of_list_ascii_of_string in H.
  apply (f_equal NilZero.uint_of_string) in H. rewrite !NilZero.usu in H by apply to_uint_some. injection H as H. now apply Unsigned.to_uint_inj.
Qed.
Lemma bins_differ : forall ci nm j k c, named ci (extended nm j) c -> named ci (extended nm k) c -> j = k.
Proof.
  intros ci nm j k c A B. apply named_ok in A. apply named_ok in B. unfold Delete_Model.same_name in A, B.
  destruct (list_eq_dec ascii_dec (map (fix_case ci) (label c)) (map (fix_case ci) (extended nm j))) as [Ea|]; [|discriminate A].
  destruct (list_eq_dec ascii_dec (map (fix_case ci) (label c)) (map (fix_case ci) (extended nm k))) as [Eb|]; [|discriminate B].
  rewrite Ea in Eb. unfold extended in Eb. rewrite !map_app in Eb. apply app_inv_head in Eb. cbn [map] in Eb. injection Eb as Eb.
  rewrite !low_map in Eb by apply low_number. now apply number_inj.
Qed.
Lemma bins_found : forall ci nm n k sc, bins ci nm n k sc = None ->
  exists l, List.length l = n /\ NoDup l /\ incl l sc /\ Forall (fun c => exists j, k < j /\ named ci (extended nm j) c) l.
Proof.
  intros ci nm n. induction n as [|n IH]; intros k sc H; cbn [bins] in H.
  - exists []. repeat split; [constructor|intros x []|constructor].
  - destruct (in_scope ci (extended nm (S k)) sc) as [c|] eqn:E; [|discriminate H]. destruct (fits c); [discriminate H|].
    destruct (IH (S k) sc H) as (l & L & N & I & F). apply in_first in E. destruct E as (pre & post & Es & Nc & _). exists (c :: l). split; [cbn; now rewrite L|]. split; [|split].
    + constructor; [|exact N]. intros J. destruct (proj1 (Forall_forall _ _) F c J) as (j & Hj & Nj). assert (S k = j) by now apply (bins_differ ci nm _ _ c). lia.
    + intros x [<-|J]; [rewrite Es; apply in_or_app; right; now left|now apply I].
    + constructor; [exists (S k); split; [lia|exact Nc]|]. eapply Forall_impl; [|exact F]. intros x (j & Hj & Nj). exists j. split; [lia|exact Nj].
Qed.
Lemma bins_end : forall ci nm sc, bins ci nm (S (List.length sc)) 0 sc <> None.
Proof.
  intros ci nm sc H. destruct (bins_found _ _ _ _ _ H) as (l & L & N & I & _). pose proof (NoDup_incl_length N I). lia.
Qed.
Lemma bins_spec : forall ci nm n k sc c m, bins ci nm n k sc = Some (c, m) ->
  k < m /\ (forall j, k < j < m -> exists b, first ci (bin nm j) sc b /\ ~ model_that_fits b) /\
  match c with Some c => first ci (bin nm m) sc c /\ model_that_fits c | None => nobody ci (bin nm m) sc end.
Proof.
  intros ci nm n. induction n as [|n IH]; intros k sc c m H; [discriminate H|]. cbn [bins] in H.
  destruct (in_scope ci (extended nm (S k)) sc) as [x|] eqn:E.
  - apply in_first in E. destruct (fits x) eqn:Ef.
    + injection H as <- <-. split; [lia|]. split; [intros; lia|]. split; [exact E|now apply fits_ok].
    + destruct (IH (S k) sc c m H) as (A & B & C). split; [lia|]. split; [|exact C]. intros j Hj. destruct (Nat.eq_dec j (S k)) as [->|D].
      * exists x. split; [exact E|now apply fits_not].
      * apply B. lia.
  - injection H as <- <-. split; [lia|]. split; [intros; lia|]. now apply in_none.
Qed.
Lemma offers_fun : forall ci nm sc c d, offers ci nm sc c -> offers ci nm sc d -> c = d.
Proof.
  intros ci nm sc c d [H|(H & k & Hk & Fk & Mk & Lk)] [K|(K & j & Hj & Fj & Mj & Lj)].
  - now apply (first_fun ci nm sc).
  - elim (first_somebody _ _ _ _ H K).
  - elim (first_somebody _ _ _ _ K H).
  - destruct (lt_eq_lt_dec k j) as [[L| ->]|L].
    + destruct (Lj k ltac:(lia)) as (b & Fb & Nb). rewrite (first_fun _ _ _ _ _ Fb Fk) in Nb. contradiction.
    + now apply (first_fun ci (bin nm j) sc).
    + destruct (Lk j ltac:(lia)) as (b & Fb & Nb). rewrite (first_fun _ _ _ _ _ Fb Fj) in Nb. contradiction.
Qed.
Lemma look_spec : forall ci nm scopes bc, exists c m, look ci nm scopes bc = Some (c, m) /\
  match c with
  | Some c => nearest ci nm scopes c
  | None => Forall (offers_none ci nm) scopes /\ (scopes = [] -> m = bc) /\
      forall pre root, scopes = pre ++ [root] -> 1 <= m /\ (2 <= m <-> exists b, first ci (bin nm 1) root b)
  end.
Proof.
  intros ci nm scopes. induction scopes as [|sc rest IH]; intros bc.
  - eexists _, _. split; [reflexivity|]. split; [constructor|]. split; [reflexivity|]. intros pre root E. destruct pre; discriminate E.
  - cbn [look]. destruct (in_scope ci nm sc) as [c|] eqn:E.
    + eexists _, _. split; [reflexivity|]. apply n_here. left. now apply in_first.
    + apply in_none in E. destruct (bins ci nm (S (List.length sc)) 0 sc) as [[[c|] m]|] eqn:Eb; [| |elim (bins_end ci nm sc Eb)]; destruct (bins_spec _ _ _ _ _ _ _ Eb) as (A & B & C).
      * eexists _, _. split; [reflexivity|]. apply n_here. right. split; [exact E|]. destruct C as [C1 C2]. exists m. split; [lia|]. split; [exact C1|]. split; [exact C2|].
        intros j Hj. apply B. lia.
      * assert (No : offers_none ci nm sc).
        { intros c [H|(_ & k & Hk & Fk & Mk & Lk)]; [exact (first_somebody _ _ _ _ H E)|]. destruct (lt_eq_lt_dec k m) as [[L| ->]|L].
          - destruct (B k ltac:(lia)) as (b & Fb & Nb). rewrite (first_fun _ _ _ _ _ Fb Fk) in Nb. contradiction.
          - exact (first_somebody _ _ _ _ Fk C).
          - destruct (Lk m ltac:(lia)) as (b & Fb & Nb). exact (first_somebody _ _ _ _ Fb C). }
        destruct (IH m) as (c & m2 & E2 & S2). exists c, m2. split; [exact E2|]. destruct c as [c|]; [now apply n_out|].
        destruct S2 as (F2 & Z2 & R2). split; [now constructor|]. split; [discriminate|]. intros pre root Er. destruct pre as [|p pre].
        -- cbn [app] in Er. injection Er as -> ->. rewrite (Z2 eq_refl). split; [lia|]. split.
           ++ intros L. destruct (B 1 ltac:(lia)) as (b & Fb & _). now exists b.
           ++ intros (b & Fb). destruct (Nat.eq_dec m 1) as [->|D]; [elim (first_somebody _ _ _ _ Fb C)|lia].
        -- cbn [app] in Er. injection Er as _ Er. exact (R2 pre root Er).
Qed.
Lemma nearest_fun : forall ci nm scopes c, nearest ci nm scopes c -> forall d, nearest ci nm scopes d -> c = d.
Proof.
  intros ci nm scopes c H. induction H as [sc rest c H|sc rest c H K IH]; intros d D; inversion D as [sc' rest' d' D1|sc' rest' d' D1 D2]; subst.
  - now apply (offers_fun ci nm sc).
  - elim (D1 c H).
  - elim (H d D1).
  - now apply IH.
Qed.
Lemma nearest_none : forall ci nm scopes c, nearest ci nm scopes c -> Forall (offers_none ci nm) scopes -> False.
Proof. intros ci nm scopes c H. induction H as [sc rest c H|sc rest c H K IH]; intros F; inversion_clear F as [|? ? F1 F2]; [exact (F1 c H)|now apply IH]. Qed.

(* ---- theorems ---- *)
(* at most one card is meant, so the theorems below determine the result *)
Theorem C80_one : forall ci nm scopes c d, nearest ci nm scopes c -> nearest ci nm scopes d -> c = d.
Proof. intros ci nm scopes c d H K. exact (nearest_fun ci nm scopes c H d K). Qed.
Theorem C80_found : forall ci nm scopes c w, nm <> [] ->
  (find_model ci nm scopes = Found c w <-> nearest ci nm scopes c /\ ((kind c = AModel true /\ w = false) \/ (kind c = AModel false /\ w = true))).
Proof.
  intros ci nm scopes c w N. unfold find_model. destruct nm as [|a nm]; [contradiction|]. destruct (look_spec ci (a :: nm) scopes 0) as (x & m & E & S). rewrite E. destruct x as [x|].
  - destruct (kind x) as [v|] eqn:Ek; split.
    + intros [= <- <-]. split; [exact S|]. destruct v; auto.
    + intros [H K]. rewrite (nearest_fun _ _ _ _ S _ H) in *. rewrite Ek in K. destruct K as [[[= ->] ->]|[[= ->] ->]]; reflexivity.
    + discriminate.
    + intros [H K]. rewrite (nearest_fun _ _ _ _ S _ H) in *. rewrite Ek in K. destruct K as [[K _]|[K _]]; discriminate K.
  - split; [destruct (m <=? 1); discriminate|]. intros [H _]. elim (nearest_none _ _ _ _ H). apply S.
Qed.
Theorem C80_mismatch : forall ci nm scopes, nm <> [] -> (find_model ci nm scopes = Mismatch <-> exists c, nearest ci nm scopes c /\ kind c = Other).
Proof.
  intros ci nm scopes N. unfold find_model. destruct nm as [|a nm]; [contradiction|]. destruct (look_spec ci (a :: nm) scopes 0) as (x & m & E & S). rewrite E. destruct x as [x|].
  - destruct (kind x) as [v|] eqn:Ek; split; try discriminate.
    + intros (c & H & K). rewrite (nearest_fun _ _ _ _ S _ H) in *. congruence.
    + intros _. now exists x.
    + reflexivity.
  - split; [destruct (m <=? 1); discriminate|]. intros (c & H & _). elim (nearest_none _ _ _ _ H). apply S.
Qed.
Theorem C80_none : forall ci nm scopes, nm <> [] ->
  (find_model ci nm scopes = Cant_find \/ find_model ci nm scopes = No_bins <-> Forall (offers_none ci nm) scopes).
Proof.
  intros ci nm scopes N. unfold find_model. destruct nm as [|a nm]; [contradiction|]. destruct (look_spec ci (a :: nm) scopes 0) as (x & m & E & S). rewrite E. destruct x as [x|].
  - split; [intros [H|H]; destruct (kind x); discriminate H|]. intros F. elim (nearest_none _ _ _ _ S F).
  - split; [intros _; apply S|]. intros _. destruct (m <=? 1); auto.
Qed.
(* which of the two messages: only the outermost list decides *)
Theorem C80_message : forall ci nm pre root, nm <> [] -> Forall (offers_none ci nm) (pre ++ [root]) ->
  (find_model ci nm (pre ++ [root]) = No_bins <-> exists b, first ci (bin nm 1) root b).
Proof.
  intros ci nm pre root N F. unfold find_model. destruct nm as [|a nm]; [contradiction|]. destruct (look_spec ci (a :: nm) (pre ++ [root]) 0) as (x & m & E & S). rewrite E.
  destruct x as [x|]; [elim (nearest_none _ _ _ _ S F)|]. destruct S as (_ & _ & S). destruct (S pre root eq_refl) as [_ <-]. destruct (Nat.leb_spec m 1); split; intros H0; try reflexivity; try discriminate H0; lia.
Qed.
(* the loop over the bins always ends, whatever the cards are called *)
Theorem C80_ends : forall ci nm scopes, find_model ci nm scopes <> Endless.
Proof.
  intros ci nm scopes. unfold find_model. destruct nm as [|a nm]; [discriminate|]. destruct (look_spec ci (a :: nm) scopes 0) as (x & m & E & _). rewrite E.
  destruct x as [x|]; [destruct (kind x); discriminate|]. destruct (m <=? 1); discriminate.
Qed.
(* no name, no model *)
Theorem C80_nameless : forall ci nm scopes, find_model ci nm scopes = Nameless <-> nm = [].
Proof.
  intros ci nm scopes. split; [|now intros ->]. intros H. destruct nm as [|a nm]; [reflexivity|]. exfalso. revert H. unfold find_model.
  destruct (look_spec ci (a :: nm) scopes 0) as (x & m & E & _). rewrite E. destruct x as [x|]; [destruct (kind x); discriminate|]. destruct (m <=? 1); discriminate.
Qed.
(* what is not promised: bins behind a missing number are not seen *)
Theorem C80_gap_refuted : exists nm sc c, In c sc /\ named true (bin nm 2) c /\ model_that_fits c /\ forall ci, find_model ci nm [sc] = Cant_find.
Proof.
  exists (str "nch"), [Card (str "nch.2") 1 (AModel true)], (Card (str "nch.2") 1 (AModel true)). split; [now left|].
  split; [repeat constructor|]. split; [reflexivity|]. now intros [].
Qed.
(* bins inside a subcircuit none of which fits are reported as not found at all *)
Theorem C80_message_refuted : exists nm sc b, first true (bin nm 1) sc b /\ forall ci, find_model ci nm [sc; []] = Cant_find.
Proof.
  exists (str "nch"), [Card (str "nch.1") 1 (AModel false)], (Card (str "nch.1") 1 (AModel false)). split; [|now intros []].
  exists [], []. split; [reflexivity|]. split; [repeat constructor|constructor].
Qed.
(* a part called like the model, in the list of the device, hides the model outside *)
Theorem C80_hidden_refuted : exists nm inner outer c, In c outer /\ named true nm c /\ model_that_fits c /\ forall ci, find_model ci nm [inner; outer] = Mismatch.
Proof.
  exists (str "d1"), [Card (str "d1") 1 Other], [Card (str "d1") 2 (AModel true)], (Card (str "d1") 2 (AModel true)). split; [now left|].
  split; [repeat constructor|]. split; [reflexivity|]. now intros [].
Qed.

(* ---- cases ---- *)
Definition wide : card := Card (str "NCH.2") 2 (AModel true).
Definition local_list : list card := [Card (str "r1") 9 Other; Card (str "nch.1") 1 (AModel false); wide; Card (str "nch.3") 3 (AModel true)].
Definition root_list : list card := [Card (str "nch") 4 (AModel true); Card (str "pch") 5 (AModel false)].
Example ex_C80 : find_model true (str "nch") [local_list; root_list] = Found wide false /\
  find_model false (str "nch") [local_list; root_list] = Found (Card (str "nch") 4 (AModel true)) false /\
  find_model true (str "pch") [local_list; root_list] = Found (Card (str "pch") 5 (AModel false)) true /\
  find_model true (str "r1") [local_list; root_list] = Mismatch /\ find_model true (str "zz") [local_list; root_list] = Cant_find /\
  find_model true (str "nch") [[]; firstn 2 local_list] = No_bins.
Proof. repeat split. Qed.
Example ex_C80_nearest : nearest true (str "pch") [local_list; root_list] (Card (str "pch") 5 (AModel false)).
Proof.
  apply (proj1 (C80_found true (str "pch") [local_list; root_list] (Card (str "pch") 5 (AModel false)) true ltac:(discriminate))). reflexivity.
Qed.
Example ex_C80_none : Forall (offers_none true (str "nch")) ([[]] ++ [firstn 2 local_list]).
Proof. apply (proj1 (C80_none true (str "nch") _ ltac:(discriminate))). right. reflexivity. Qed.

Print Assumptions C80_one.
Print Assumptions C80_found.
Print Assumptions C80_mismatch.
Print Assumptions C80_none.
Print Assumptions C80_message.
Print Assumptions C80_ends.
Print Assumptions C80_nameless.
Print Assumptions C80_gap_refuted.
Print Assumptions C80_message_refuted.
Print Assumptions C80_hidden_refuted.
