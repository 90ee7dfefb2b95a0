(* C83: which cards the commands list and save print. *)
Require Import Ascii String List Bool Arith Lia.
Require Import Verif.Wmatch_Model Verif.List_Model.
Import ListNotations.
Open Scope list_scope.

(* ---- the claim, without the model; fits is what a pattern means (C13) ---- *)

Definition fits (ci : bool) (p : list ascii) (c : card) : bool := wmatch ci (label c) p.
Definition no_fit (ci : bool) (p : list ascii) (l : list card) : Prop := forall c, In c l -> fits ci p c = false.

(* ---- proofs ---- *)

Section Any.
Variable ci : bool.

Lemma find_no p l : no_fit ci p l -> forall r, find ci p (l ++ r) = find ci p r.
Proof.
  intros N r. induction l as [|c l IH]; [reflexivity|]. cbn [app find].
  pose proof (N c (or_introl eq_refl)) as E. unfold fits in E. rewrite E. apply IH. intros x I. apply N. right. exact I.
Qed.
Lemma find_none p l : no_fit ci p l -> find ci p l = [].
Proof. intros N. rewrite <- (app_nil_r l), (find_no p l N). reflexivity. Qed.
Lemma find_hit p l c r : no_fit ci p l -> fits ci p c = true -> find ci p (l ++ c :: r) = c :: r.
Proof. intros N F. rewrite (find_no p l N). cbn [find]. unfold fits in F. rewrite F. reflexivity. Qed.
(* either nothing fits, or there is a first that does *)
Lemma find_split p l : no_fit ci p l \/ exists a c b, l = a ++ c :: b /\ no_fit ci p a /\ fits ci p c = true.
Proof.
  induction l as [|c l IH]; [left; intros x []|]. destruct (fits ci p c) eqn:E.
  - right. exists [], c, l. split; [reflexivity|]. split; [intros x []|exact E].
  - destruct IH as [N|(a & x & b & -> & N & F)].
    + left. intros x [<-|I]; [exact E|exact (N x I)].
    + right. exists (c :: a), x, b. split; [reflexivity|]. split; [|exact F].
      intros y [<-|I]; [exact E|exact (N y I)].
Qed.
Lemma no_fit_filter p l : no_fit ci p l -> filter (fits ci p) l = [].
Proof.
  intros N. induction l as [|c l IH]; [reflexivity|]. cbn [filter]. rewrite (N c (or_introl eq_refl)).
  apply IH. intros x I. apply N. right. exact I.
Qed.
Lemma matches_ok p n : forall l, length l <= n -> matches ci n (Name p) (find ci p l) = filter (fits ci p) l.
Proof.
  induction n as [|n IH]; intros l L.
  - destruct l; [reflexivity|simpl in L; lia].
  - destruct (find_split p l) as [N|(a & c & b & -> & N & F)].
    + rewrite (find_none p l N), (no_fit_filter p l N). reflexivity.
    + rewrite (find_hit p a c b N F), filter_app, (no_fit_filter p a N). cbn [app filter matches]. rewrite F.
      f_equal. cbn [findbranch]. apply IH. rewrite app_length in L. simpl in L. lia.
Qed.
Lemma find_shorter p l : length (find ci p l) <= length l.
Proof. induction l as [|c l IH]; [apply le_n|]. cbn [find]. destruct (wmatch ci (label c) p); simpl in *; lia. Qed.
Lemma find_again p l : find ci p (find ci p l) = find ci p l.
Proof.
  destruct (find_split p l) as [N|(a & c & b & -> & N & F)].
  - rewrite (find_none p l N). reflexivity.
  - rewrite (find_hit p a c b N F). apply (find_hit p [] c b); [intros x []|exact F].
Qed.
Lemma matches_all p l : matches ci (length (find ci p l)) (Name p) (find ci p l) = filter (fits ci p) l.
Proof.
  rewrite <- (find_again p l) at 2. rewrite matches_ok by apply le_n.
  destruct (find_split p l) as [N|(a & c & b & -> & N & F)].
  - rewrite (find_none p l N), (no_fit_filter p l N). reflexivity.
  - rewrite (find_hit p a c b N F), filter_app, (no_fit_filter p a N). reflexivity.
Qed.
Lemma range_cons c r s : length r >= s -> range (c :: r) s = match range r s with Some l => Some (c :: l) | None => None end.
Proof.
  intros L. cbn [range]. destruct (Nat.eqb_spec (length (c :: r)) s) as [E|_]; [simpl in E; lia|reflexivity].
Qed.
Lemma range_ok a m b r : range (a :: m ++ b :: r) (length (b :: r)) = Some (a :: m ++ [b]).
Proof.
  revert a. induction m as [|x m IH]; intros a.
  - cbn [app]. rewrite range_cons by apply le_n. cbn [range]. rewrite Nat.eqb_refl. reflexivity.
  - cbn [app]. rewrite range_cons; [rewrite (IH x); reflexivity|]. simpl. rewrite app_length. simpl. lia.
Qed.

(* ---- the theorems ---- *)

(* Without arguments every card is printed. *)
Theorem C83_all scope : list_save ci [] scope = Printed scope.
Proof. reflexivity. Qed.

(* Names: for each name in turn, all the cards that fit it, in the order of the circuit; as long as every name fits some
   card. *)
Theorem C83_names p ps scope : (forall q, In q (p :: ps) -> exists c, In c scope /\ fits ci q c = true) ->
  list_save ci (map Name (p :: ps)) scope = Printed (flat_map (fun q => filter (fits ci q) scope) (p :: ps)).
Proof.
  intros H.
  assert (G : forall q qs, (forall x, In x (q :: qs) -> exists c, In c scope /\ fits ci x c = true) ->
    each ci (Name q) (map Name qs) scope (find ci q scope) = flat_map (fun x => filter (fits ci x) scope) (q :: qs) /\
    find ci q scope <> []).
  { intros q qs. revert q. induction qs as [|x qs IH]; intros q K.
    - assert (NE : find ci q scope <> []).
      { destruct (K q (or_introl eq_refl)) as (c & I & F).
        destruct (find_split q scope) as [N|(a & d & b & -> & N & D)]; [rewrite (N c I) in F; discriminate|].
        rewrite (find_hit q a d b N D). discriminate. }
      split; [|exact NE]. pose proof (matches_all q scope) as M.
      destruct (find ci q scope) as [|d b]; [contradiction|]. cbn [map each flat_map]. rewrite M. reflexivity.
    - assert (NE : find ci q scope <> []).
      { destruct (K q (or_introl eq_refl)) as (c & I & F).
        destruct (find_split q scope) as [N|(a & d & b & -> & N & D)]; [rewrite (N c I) in F; discriminate|].
        rewrite (find_hit q a d b N D). discriminate. }
      split; [|exact NE]. pose proof (matches_all q scope) as M.
      destruct (IH x (fun y I => K y (or_intror I))) as [E _].
      destruct (find ci q scope) as [|d b]; [contradiction|]. cbn [map each findbranch]. rewrite M.
      cbn [map] in E. rewrite E. reflexivity. }
  destruct (G p ps H) as [E NE]. cbn [map]. unfold list_save.
  destruct (find ci p scope) as [|d b]; [contradiction|].
  destruct ps as [|x ps]; cbn [map] in *; rewrite E; reflexivity.
Qed.

(* A first name that fits no card is reported, and nothing is printed. *)
Theorem C83_unknown p ts scope : no_fit ci p scope -> list_save ci (Name p :: ts) scope = Cant_find [].
Proof. intros N. cbn [list_save]. rewrite (find_none p scope N). reflexivity. Qed.

(* A range: from the first card that fits the first name to the first after it that fits the second, with all between. *)
Theorem C83_range p q ts pre a m b post : no_fit ci p pre -> fits ci p a = true -> no_fit ci q m -> fits ci q b = true ->
  list_save ci (Name p :: Dash :: Name q :: ts) (pre ++ a :: m ++ b :: post) = Printed (a :: m ++ [b]).
Proof.
  intros N F M G. cbn [list_save]. rewrite (find_hit p pre a _ N F). unfold to. cbn [findbranch].
  rewrite (find_hit q m b post M G), range_ok. reflexivity.
Qed.
(* If none after it fits the second name, that is reported and nothing is printed. *)
Theorem C83_range_unknown p q ts pre a post : no_fit ci p pre -> fits ci p a = true -> no_fit ci q post ->
  list_save ci (Name p :: Dash :: Name q :: ts) (pre ++ a :: post) = Cant_find [].
Proof.
  intros N F M. cbn [list_save]. rewrite (find_hit p pre a _ N F). unfold to. cbn [findbranch].
  rewrite (find_none q post M). reflexivity.
Qed.
(* A dash at the end: to the end of the circuit. *)
Theorem C83_from p pre a post : no_fit ci p pre -> fits ci p a = true ->
  list_save ci [Name p; Dash] (pre ++ a :: post) = Printed (a :: post).
Proof. intros N F. cbn [list_save]. rewrite (find_hit p pre a _ N F). reflexivity. Qed.
(* A dash in front: from the beginning, to the first card after the first one that fits. *)
Theorem C83_upto q ts a m b post : no_fit ci q m -> fits ci q b = true ->
  list_save ci (Dash :: Name q :: ts) (a :: m ++ b :: post) = Printed (a :: m ++ [b]).
Proof.
  intros M G. cbn [list_save]. unfold to. cbn [findbranch]. rewrite (find_hit q m b post M G), range_ok. reflexivity.
Qed.

(* Whatever the line, it ends without using the end of the list, and prints only cards of the circuit. *)
Theorem C83_safe line scope : list_save ci line scope <> Undef /\
  forall l c, list_save ci line scope = Printed l -> In c l -> In c scope.
Proof.
  assert (FI : forall t h c, In c (findbranch ci t h) -> In c h).
  { assert (X : forall p h c, In c (find ci p h) -> In c h).
    { intros p h c. induction h as [|d h IH]; [intros []|]. cbn [find].
      destruct (wmatch ci (label d) p); [trivial|]. intros I. right. exact (IH I). }
    intros [|p] h c; apply X. }
  assert (MI : forall n t h c, In c (matches ci n t h) -> In c h).
  { induction n as [|n IH]; intros t h c; [intros []|]. destruct h as [|d h]; [intros []|].
    cbn [matches]. intros [X|I]; [left; exact X|]. right. exact (FI t h c (IH t _ c I)). }
  assert (EI : forall ts t h c, (forall x, In x h -> In x scope) -> In c (each ci t ts scope h) -> In c scope).
  { induction ts as [|u ts IH]; intros t h c S I; destruct h as [|d h]; cbn [each] in I; try contradiction;
      apply in_app_or in I; destruct I as [I|I].
    - exact (S c (MI _ _ _ _ I)).
    - contradiction.
    - exact (S c (MI _ _ _ _ I)).
    - exact (IH u _ c (fun x J => FI u scope x J) I). }
  assert (SP : forall t h s rest, findbranch ci t h = s :: rest -> exists m, h = m ++ s :: rest).
  { assert (X : forall p h s rest, find ci p h = s :: rest -> exists m, h = m ++ s :: rest).
    { intros p h s rest. induction h as [|d h IH]; [discriminate|]. cbn [find].
      destruct (wmatch ci (label d) p); intros E; [exists []; exact E|].
      destruct (IH E) as [m ->]. exists (d :: m). reflexivity. }
    intros [|p] h s rest; apply X. }
  assert (TO : forall h ts, h <> [] -> to ci h ts <> Undef /\ forall l c, to ci h ts = Printed l -> In c l -> In c h).
  { intros h [|t ts] NE; cbn [to].
    - split; [discriminate|]. intros l c E. injection E as ->. trivial.
    - destruct h as [|a h]; [contradiction|]. destruct (findbranch ci t h) as [|s rest] eqn:E.
      + split; [discriminate|]. intros l c X. discriminate.
      + destruct (SP t h s rest E) as [m ->]. rewrite range_ok. split; [discriminate|].
        intros l c X. injection X as <-. intros [<-|I]; [left; reflexivity|].
        apply in_app_or in I. right. apply in_or_app. destruct I as [I|[<-|[]]]; [left; exact I|right; left; reflexivity]. }
  destruct line as [|[|p] ts]; cbn [list_save].
  - split; [discriminate|]. intros l c E. injection E as ->. trivial.
  - destruct scope as [|a s]; [split; [discriminate|]; intros l c X; discriminate|]. apply TO. discriminate.
  - destruct (find ci p scope) as [|a h] eqn:E; [split; [discriminate|]; intros l c X; discriminate|].
    assert (S : forall x, In x (a :: h) -> In x scope) by (intros x I; apply (FI (Name p)); cbn [findbranch]; rewrite E; exact I).
    assert (D : forall us, Printed (each ci (Name p) us scope (a :: h)) <> Undef /\
      forall l c, Printed (each ci (Name p) us scope (a :: h)) = Printed l -> In c l -> In c scope).
    { intros us. split; [discriminate|]. intros l c X I. injection X as <-. exact (EI us _ _ c S I). }
    destruct ts as [|[|q] ts]; [apply D| |apply D].
    destruct (TO (a :: h) ts ltac:(discriminate)) as [T1 T2]. split; [exact T1|].
    intros l c X I. exact (S c (T2 l c X I)).
Qed.

End Any.

(* After a name that fits nothing, the names that follow are not looked for, and nothing tells so. *)
Theorem C83_silent_refuted : forall ci p q ts scope, (exists c, In c scope /\ fits ci p c = true) -> no_fit ci q scope ->
  list_save ci (Name p :: Name q :: ts) scope = Printed (filter (fits ci p) scope).
Proof.
  intros ci p q ts scope (c & I & F) N. cbn [list_save].
  pose proof (matches_all ci p scope) as M.
  destruct (find_split ci p scope) as [X|(a & d & b & E & X & D)]; [rewrite (X c I) in F; discriminate|].
  pose proof (find_hit ci p a d b X D) as H. rewrite <- E in H. rewrite H in *.
  cbn [each findbranch]. rewrite M, (find_none ci q scope N).
  destruct ts; cbn [each]; rewrite app_nil_r; reflexivity.
Qed.
(* A range up to the first card of the circuit, or from a card to itself, is not found. *)
Theorem C83_same_refuted : forall ci p ts a post, fits ci p a = true -> no_fit ci p post ->
  list_save ci (Dash :: Name p :: ts) (a :: post) = Cant_find [] /\
  list_save ci (Name p :: Dash :: Name p :: ts) (a :: post) = Cant_find [].
Proof.
  intros ci p ts a post F N. split.
  - cbn [list_save]. unfold to. cbn [findbranch]. rewrite (find_none ci p post N). reflexivity.
  - apply (C83_range_unknown ci p p ts [] a post); [intros x []|exact F|exact N].
Qed.

(* ---- cases ---- *)
Definition t (s : string) : list ascii := list_ascii_of_string s.
Definition circuit : list card := [Card (t "V1") 1; Card (t "R1") 2; Card (t "C1") 3; Card (t "R2") 4; Card (t "R3") 5].
Example C83_case_names : list_save true [Name (t "c?"); Name (t "r?")] circuit =
  Printed [Card (t "C1") 3; Card (t "R1") 2; Card (t "R2") 4; Card (t "R3") 5].
Proof. reflexivity. Qed.
Example C83_case_hyp : forall q, In q [t "c?"; t "r?"] -> exists c, In c circuit /\ fits true q c = true.
Proof.
  intros q [<-|[<-|[]]].
  - exists (Card (t "C1") 3). split; [simpl; tauto|reflexivity].
  - exists (Card (t "R1") 2). split; [simpl; tauto|reflexivity].
Qed.
Example C83_case_range : list_save true [Name (t "r?"); Dash; Name (t "r2")] circuit =
  Printed [Card (t "R1") 2; Card (t "C1") 3; Card (t "R2") 4].
Proof. reflexivity. Qed.
Example C83_case_from : list_save true [Name (t "r2"); Dash] circuit = Printed [Card (t "R2") 4; Card (t "R3") 5].
Proof. reflexivity. Qed.
Example C83_case_upto : list_save true [Dash; Name (t "r1")] circuit = Printed [Card (t "V1") 1; Card (t "R1") 2].
Proof. reflexivity. Qed.
Example C83_case_unknown : list_save true [Name (t "l1")] circuit = Cant_find [] /\
  list_save true [Name (t "r2"); Dash; Name (t "c1")] circuit = Cant_find [].
Proof. split; reflexivity. Qed.
Example C83_case_silent : list_save true [Name (t "c1"); Name (t "l1"); Name (t "r1")] circuit = Printed [Card (t "C1") 3].
Proof. reflexivity. Qed.
Example C83_case_same : list_save true [Dash; Name (t "v1")] circuit = Cant_find [].
Proof. reflexivity. Qed.

Print Assumptions C83_all.
Print Assumptions C83_names.
Print Assumptions C83_unknown.
Print Assumptions C83_range.
Print Assumptions C83_range_unknown.
Print Assumptions C83_from.
Print Assumptions C83_upto.
Print Assumptions C83_safe.
Print Assumptions C83_silent_refuted.
Print Assumptions C83_same_refuted.
