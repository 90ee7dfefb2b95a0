(* Lemmas about the delete command. *)
Require Import String Ascii List Bool ZArith Lia.
Require Import Verif.Loops Verif.Wmatch_Model Verif.CS_Model Verif.CS_Proofs Verif.CS_Ops Verif.CS_Word Verif.Probes_Model Verif.Probes_Text Verif.Probes_Canon Verif.Delete_Model.
Import ListNotations.
Local Open Scope list_scope.

Lemma fix_same : forall ci c d, fix_case ci c = fix_case ci d <-> same_char ci c d.
Proof.
  intros ci c d. unfold same_char, fix_case. destruct ci.
  - split; [auto|]. intros [->|[_ H]]; auto.
  - split; [auto|]. intros [->|[H _]]; [auto|discriminate].
Qed.
Lemma same_name_ok : forall ci a b, same_name ci a b = true <-> Forall2 (same_char ci) a b.
Proof.
  intros ci a b. unfold same_name. destruct (list_eq_dec ascii_dec (map (fix_case ci) a) (map (fix_case ci) b)) as [E|E].
  - split; [|reflexivity]. intros _. revert b E. induction a as [|c a IH]; intros [|d b] E; try discriminate E; [constructor|].
    cbn [map] in E. injection E as E1 E2. constructor; [now apply fix_same|now apply IH].
  - split; [discriminate|]. intros F. exfalso. apply E. clear E. induction F as [|c d a b H _ IH]; [reflexivity|]. cbn [map].
    apply fix_same in H. now rewrite H, IH.
Qed.
Lemma find_some : forall ci nm l a c b, find_card ci nm l = Some (a, c, b) ->
  l = a ++ c :: b /\ same_name ci (label c) nm = true /\ Forall (fun x => same_name ci (label x) nm = false) a.
Proof.
  intros ci nm l. induction l as [|x l IH]; intros a c b H; [discriminate H|]. cbn [find_card] in H.
  destruct (same_name ci (label x) nm) eqn:E.
  - injection H as <- <- <-. auto.
  - destruct (find_card ci nm l) as [[[a' c'] b']|]; [|discriminate H]. injection H as <- <- <-.
    destruct (IH a' c' b' eq_refl) as (-> & S & F). split; [reflexivity|]. split; [exact S|]. now constructor.
Qed.
Lemma find_none : forall ci nm l, find_card ci nm l = None -> Forall (fun x => same_name ci (label x) nm = false) l.
Proof.
  intros ci nm l. induction l as [|x l IH]; intros H; [constructor|]. cbn [find_card] in H.
  destruct (same_name ci (label x) nm) eqn:E; [discriminate H|]. destruct (find_card ci nm l) as [[[a' c'] b']|]; [discriminate H|].
  constructor; auto.
Qed.
Lemma find_is : forall ci nm a c b, same_name ci (label c) nm = true -> Forall (fun x => same_name ci (label x) nm = false) a ->
  find_card ci nm (a ++ c :: b) = Some (a, c, b).
Proof.
  intros ci nm a c b S F. induction F as [|x a H _ IH]; cbn [app find_card]; [now rewrite S|]. now rewrite H, IH.
Qed.
Lemma find_isnt : forall ci nm l, Forall (fun x => same_name ci (label x) nm = false) l -> find_card ci nm l = None.
Proof. intros ci nm l F. induction F as [|x l H _ IH]; [reflexivity|]. cbn [find_card]. now rewrite H, IH. Qed.

Lemma cut_first_none : forall d, ~ In "."%char d <-> cut_first d = None.
Proof.
  induction d as [|c d IH]; cbn [cut_first]; [split; [reflexivity|intros _ []]|]. destruct (Ascii.eqb_spec c ".") as [->|N].
  - split; [|discriminate]. intros H. elim H. now left.
  - destruct (cut_first d) as [[a b]|].
    + split; [|discriminate]. intros H. enough (Some (a, b) = None) by discriminate. apply IH. intros I. apply H. now right.
    + split; [reflexivity|]. intros _ [E|I]; [contradiction|]. now apply IH.
Qed.
Lemma cut_first_is : forall a b, ~ In "."%char a -> cut_first (a ++ "."%char :: b) = Some (a, b).
Proof.
  induction a as [|c a IH]; intros b H; [reflexivity|]. cbn [app cut_first]. destruct (Ascii.eqb_spec c ".") as [->|N]; [elim H; now left|].
  rewrite IH; [reflexivity|]. intros I. apply H. now right.
Qed.
Lemma cut_first_some : forall d a b, cut_first d = Some (a, b) -> d = a ++ "."%char :: b /\ ~ In "."%char a.
Proof.
  induction d as [|c d IH]; intros a b H; [discriminate H|]. cbn [cut_first] in H. destruct (Ascii.eqb_spec c ".") as [->|N].
  - injection H as <- <-. split; [reflexivity|intros []].
  - destruct (cut_first d) as [[a' b']|]; [|discriminate H]. injection H as <- <-. destruct (IH a' b' eq_refl) as [-> I].
    split; [reflexivity|]. intros [E|J]; contradiction.
Qed.
Lemma cut_last_none : forall d, ~ In "."%char d -> cut_last d = None.
Proof.
  induction d as [|c d IH]; intros H; [reflexivity|]. cbn [cut_last]. rewrite IH by (intros I; apply H; now right).
  destruct (Ascii.eqb_spec c ".") as [->|N]; [elim H; now left|reflexivity].
Qed.
Lemma cut_last_is : forall a b, ~ In "."%char b -> cut_last (a ++ "."%char :: b) = Some (a, b).
Proof.
  induction a as [|c a IH]; intros b H; cbn [app cut_last]; [|now rewrite IH]. now rewrite cut_last_none.
Qed.
Lemma cut_last_some : forall d a b, cut_last d = Some (a, b) -> d = a ++ "."%char :: b /\ ~ In "."%char b.
Proof.
  induction d as [|c d IH]; intros a b H; [discriminate H|]. cbn [cut_last] in H. destruct (cut_last d) as [[a' b']|] eqn:E.
  - injection H as <- <-. destruct (IH a' b' eq_refl) as [-> I]. split; [reflexivity|exact I].
  - destruct (Ascii.eqb_spec c ".") as [->|N]; [|discriminate H]. injection H as <- <-. split; [reflexivity|].
    intros I. assert (X : exists x y, d = x ++ "."%char :: y /\ ~ In "."%char y).
    { clear -I. induction d as [|c d IH]; [destruct I|]. destruct (in_dec ascii_dec "."%char d) as [J|J].
      - destruct (IH J) as (x & y & -> & K). now exists (c :: x), y.
      - destruct I as [->|I]; [now exists [], d|contradiction]. }
    destruct X as (x & y & -> & J). rewrite (cut_last_is x y J) in E. discriminate E.
Qed.

(* more depth than the name has characters makes no difference *)
Lemma depth : forall ci n m nm scope, (List.length nm < n)%nat -> (List.length nm < m)%nat -> delete_one ci n nm scope = delete_one ci m nm scope.
Proof.
  intros ci n. induction n as [|n IH]; intros m nm scope Ln Lm; [lia|]. destruct m as [|m]; [lia|]. cbn [delete_one].
  destruct (cut_first nm) as [[ct dev]|] eqn:Ec; [|reflexivity]. apply cut_first_some in Ec. destruct Ec as [En _].
  assert (L : (List.length nm = List.length ct + S (List.length dev))%nat) by (rewrite En, app_length; reflexivity).
  destruct (find_card ci ct scope) as [[[a c] b]|].
  - destruct (device c); [reflexivity|]. destruct (sub c); [|reflexivity]. rewrite (IH m); [reflexivity|lia|lia].
  - destruct (cut_last nm) as [[dv ct']|] eqn:El; [|reflexivity]. apply cut_last_some in El. destruct El as [En' _].
    assert (L' : (List.length nm = List.length dv + S (List.length ct'))%nat) by (rewrite En', app_length; reflexivity).
    destruct (find_card ci ct' scope) as [[[a c] b]|]; [|reflexivity]. destruct (device c); [reflexivity|]. destruct (sub c); [|reflexivity].
    rewrite (IH m); [reflexivity|lia|lia].
Qed.
(* one step, without the bound *)
Lemma delete_step : forall ci nm scope, delete_one_name ci nm scope =
  match cut_first nm with
  | Some (container, dev) =>
      let '(found, dev) :=
        match find_card ci container scope with
        | Some x => (Some x, dev)
        | None => match cut_last nm with Some (dev, container) => (find_card ci container scope, dev) | None => (None, dev) end
        end in
      match found with
      | None => Done (false, scope)
      | Some (a, c, b) =>
          if device c then Done (false, scope)
          else match sub c with
               | None => Assert
               | Some l => do (d, l) <- delete_one_name ci dev l; Done (d, a ++ with_sub c l :: b)
               end
      end
  | None =>
      if wild nm then Done (erase_wild ci nm scope)
      else match find_card ci nm scope with Some (a, _, b) => Done (true, a ++ b) | None => Done (false, scope) end
  end.
Proof.
  intros ci nm scope. unfold delete_one_name at 1. cbn [delete_one].
  destruct (cut_first nm) as [[ct dev]|] eqn:Ec; [|reflexivity]. apply cut_first_some in Ec. destruct Ec as [En _].
  assert (L : (List.length nm = List.length ct + S (List.length dev))%nat) by (rewrite En, app_length; reflexivity).
  destruct (find_card ci ct scope) as [[[a c] b]|].
  - destruct (device c); [reflexivity|]. destruct (sub c); [|reflexivity]. unfold delete_one_name.
    rewrite (depth ci (List.length nm) (S (List.length dev))); [reflexivity|lia|lia].
  - destruct (cut_last nm) as [[dv ct']|] eqn:El; [|reflexivity]. apply cut_last_some in El. destruct El as [En' _].
    assert (L' : (List.length nm = List.length dv + S (List.length ct'))%nat) by (rewrite En', app_length; reflexivity).
    destruct (find_card ci ct' scope) as [[[a c] b]|]; [|reflexivity]. destruct (device c); [reflexivity|]. destruct (sub c); [|reflexivity].
    unfold delete_one_name. rewrite (depth ci (List.length nm) (S (List.length dv))); [reflexivity|lia|lia].
Qed.
Lemma erase_wild_is : forall ci nm l, erase_wild ci nm l = (existsb (fun c => wmatch ci (label c) nm) l, filter (fun c => negb (wmatch ci (label c) nm)) l).
Proof.
  intros ci nm l. induction l as [|c l IH]; [reflexivity|]. cbn [erase_wild existsb filter]. rewrite IH. destruct (wmatch ci (label c) nm); reflexivity.
Qed.
Lemma wild_ok : forall nm, wild nm = true <-> In "*"%char nm \/ In "?"%char nm.
Proof.
  intros nm. unfold wild. rewrite existsb_exists. split.
  - intros (c & I & H). apply orb_true_iff in H. rewrite !Ascii.eqb_eq in H. destruct H as [->| ->]; auto.
  - intros [I|I]; eexists; (split; [exact I|reflexivity]).
Qed.
Lemma delete_name_ends : forall ci n nm scope, (List.length nm < n)%nat -> (exists d l, delete_one ci n nm scope = Done (d, l)) \/ (delete_one ci n nm scope = Assert /\ In "."%char nm).
Proof.
  intros ci n. induction n as [|n IH]; intros nm scope L; [lia|]. cbn [delete_one].
  destruct (cut_first nm) as [[ct dev]|] eqn:Ec.
  2:{ left. destruct (wild nm); [destruct (erase_wild ci nm scope) as [d l]; now exists d, l|].
      destruct (find_card ci nm scope) as [[[a c] b]|]; eauto. }
  apply cut_first_some in Ec. destruct Ec as [En _].
  assert (I : In "."%char nm) by (rewrite En; apply in_or_app; right; now left).
  assert (L1 : (List.length nm = List.length ct + S (List.length dev))%nat) by (rewrite En, app_length; reflexivity).
  assert (K : forall x dv, (List.length dv < n)%nat -> let o := match x with
     | None => Done (false, scope)
     | Some (a, c, b) => if device c then Done (false, scope) else match sub c with
        | None => Assert | Some l => do (d, l) <- delete_one ci n dv l; Done (d, a ++ with_sub c l :: b) end end in
     (exists d l, o = Done (d, l)) \/ (o = Assert /\ In "."%char nm)).
  { intros x dv Ld. cbv zeta. destruct x as [[[a c] b]|]; [|eauto]. destruct (device c); [eauto|]. destruct (sub c) as [l|]; [|auto].
    destruct (IH dv l Ld) as [(d & l' & E)|[E _]]; rewrite E; cbn [obind]; eauto. }
  destruct (find_card ci ct scope) as [x|]; [apply (K (Some x)); lia|].
  destruct (cut_last nm) as [[dv ct']|] eqn:El; [|apply (K None dev); lia]. apply cut_last_some in El. destruct El as [En' _].
  assert (L' : (List.length nm = List.length dv + S (List.length ct'))%nat) by (rewrite En', app_length; reflexivity).
  apply (K (find_card ci ct' scope) dv). lia.
Qed.
