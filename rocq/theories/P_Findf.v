(* C81: which file a search along a path takes. *)
Require Import Ascii String List Bool Arith Lia.
Require Import Verif.Findf_Model.
Import ListNotations.
Open Scope list_scope.

(* ---- the claim, without the search ---- *)

(* a directory of a path has no separator in it *)
Definition plain (d : list ascii) : Prop := ~ In ":"%char d.
(* directories written one after another with a colon between *)
Fixpoint joined (ds : list (list ascii)) : list ascii :=
  match ds with
  | [] => []
  | [d] => d
  | d :: ds' => d ++ ":"%char :: joined ds'
  end.
(* n is the name of f in the directory d: f itself for the empty one, one slash between otherwise *)
Inductive names (f : list ascii) : list ascii -> list ascii -> Prop :=
| names_here : names f [] f
| names_slash d : names f (d ++ ["/"%char]) (d ++ "/"%char :: f)
| names_plain d c : c <> "/"%char -> names f (d ++ [c]) (d ++ c :: "/"%char :: f).
(* the file that is meant: the first one that can be read *)
Inductive first (access : list ascii -> bool) (f : list ascii) : list (list ascii) -> list ascii -> Prop :=
| first_this d ds n : names f d n -> access n = true -> first access f (d :: ds) n
| first_later d ds n m : names f d m -> access m = false -> first access f ds n -> first access f (d :: ds) n.
(* there is none *)
Definition nowhere (access : list ascii -> bool) (f : list ascii) (ds : list (list ascii)) : Prop :=
  forall d n, In d ds -> names f d n -> access n = false.

(* ---- proofs ---- *)

Lemma ended_names f d : names f d (ended d ++ f).
Proof.
  unfold ended. destruct (rev d) as [|c r] eqn:E.
  - apply (f_equal (@rev ascii)) in E. rewrite rev_involutive in E. subst d. apply names_here.
  - apply (f_equal (@rev ascii)) in E. rewrite rev_involutive in E. simpl in E. subst d.
    destruct (Ascii.eqb_spec c ENDDIR) as [->|N].
    + rewrite <- app_assoc. apply names_slash.
    + rewrite <- !app_assoc. apply names_plain. exact N.
Qed.
Lemma names_one f d n m : names f d n -> names f d m -> n = m.
Proof.
  intros A B.
  assert (G : forall x, names f d x -> x = ended d ++ f).
  { intros x H. destruct H as [|e|e c N]; unfold ended.
    - reflexivity.
    - rewrite rev_unit. change (Ascii.eqb "/" ENDDIR) with true. cbv iota. rewrite <- app_assoc. reflexivity.
    - rewrite rev_unit. destruct (Ascii.eqb_spec c ENDDIR) as [E|_]; [contradiction|].
      rewrite <- !app_assoc. reflexivity. }
  rewrite (G n A), (G m B). reflexivity.
Qed.

Lemma item_last d : plain d -> item d = (d, [], true).
Proof.
  induction d as [|c d IH]; intros P; [reflexivity|]. simpl.
  destruct (Ascii.eqb_spec c PATHSEP) as [->|N]; [exfalso; apply P; left; reflexivity|].
  rewrite IH; [reflexivity|]. intros I. apply P. right. exact I.
Qed.
Lemma item_sep d r : plain d -> item (d ++ ":"%char :: r) = (d, ":"%char :: r, false).
Proof.
  induction d as [|c d IH]; intros P; [reflexivity|]. simpl.
  destruct (Ascii.eqb_spec c PATHSEP) as [->|N]; [exfalso; apply P; left; reflexivity|].
  rewrite IH; [reflexivity|]. intros I. apply P. right. exact I.
Qed.
Lemma joined_cons d e ds : joined (d :: e :: ds) = d ++ ":"%char :: joined (e :: ds).
Proof. reflexivity. Qed.

(* the directories that are tried: all, but a last one that is empty *)
Fixpoint tried (ds : list (list ascii)) : list (list ascii) :=
  match ds with
  | [] => []
  | [d] => match d with [] => [] | _ => [d] end
  | d :: ds' => d :: tried ds'
  end.
Lemma tried_cons d e ds : tried (d :: e :: ds) = d :: tried (e :: ds).
Proof. reflexivity. Qed.

Section Any.
Variable access : list ascii -> bool.

Lemma search_ok f ds : Forall plain ds -> forall n, length (joined ds) < n ->
  (exists m e, first access f (tried ds) m /\ search access n f (joined ds) = Returned m e) \/
  (nowhere access f (tried ds) /\ exists e, search access n f (joined ds) = Returned [] e).
Proof.
  induction ds as [|d ds IH]; intros P n L.
  - destruct n as [|n]; [simpl in L; lia|]. right. split; [intros d m []|]. exists false. reflexivity.
  - inversion P as [|x y Pd Ps]; subst. destruct ds as [|e ds].
    + simpl in L |- *. destruct n as [|n]; [lia|]. destruct d as [|c d].
      * right. split; [intros d m []|]. exists false. reflexivity.
      * cbn [search]. rewrite (item_last _ Pd).
        destruct (access (ended (c :: d) ++ f)) eqn:A.
        -- left. exists (ended (c :: d) ++ f), true. split; [|reflexivity].
           apply first_this; [apply ended_names|exact A].
        -- right. split; [|exists true; reflexivity].
           intros x m [<-|[]] H. rewrite (names_one _ _ _ _ H (ended_names f (c :: d))). exact A.
    + rewrite joined_cons, tried_cons in *. destruct n as [|n]; [lia|].
      rewrite app_length in L. cbn [length] in L.
      assert (S1 : search access (S n) f (d ++ ":"%char :: joined (e :: ds)) =
                   if access (ended d ++ f) then Returned (ended d ++ f) false
                   else search access n f (joined (e :: ds))).
      { cbn [search]. rewrite (item_sep _ _ Pd). destruct d; reflexivity. }
      rewrite S1. clear S1. destruct (access (ended d ++ f)) eqn:A.
      * left. exists (ended d ++ f), false. split; [|reflexivity]. apply first_this; [apply ended_names|exact A].
      * destruct (IH Ps n ltac:(lia)) as [(m & b & F & S2)|(N & b & S2)].
        -- left. exists m, b. split; [|exact S2]. eapply first_later; [apply ended_names|exact A|exact F].
        -- right. split; [|exists b; exact S2].
           intros x m [<-|I] H; [|exact (N x m I H)].
           rewrite (names_one _ _ _ _ H (ended_names f d)). exact A.
Qed.

Lemma first_one f ds n m : first access f ds n -> first access f ds m -> n = m.
Proof.
  intros A. revert m. induction A as [d ds n N T|d ds n k N T A IH]; intros m B; inversion B; subst.
  - eapply names_one; eauto.
  - exfalso. match goal with H : names f d ?x, G : access ?x = false |- _ =>
      rewrite (names_one _ _ _ _ H N), T in G; discriminate end.
  - exfalso. match goal with H : names f d m, G : access m = true |- _ =>
      rewrite (names_one _ _ _ _ H N), T in G; discriminate end.
  - apply IH. assumption.
Qed.
Lemma first_somewhere f ds n : first access f ds n -> nowhere access f ds -> False.
Proof.
  intros A. induction A as [d ds n N T|d ds n k N T A IH]; intros W.
  - rewrite (W d n (or_introl eq_refl) N) in T. discriminate.
  - apply IH. intros x m I H. exact (W x m (or_intror I) H).
Qed.
Lemma first_nonempty f ds n : f <> [] -> first access f ds n -> n <> [].
Proof.
  intros F A. induction A as [d ds n N T|d ds n k N T A IH]; [|exact IH].
  destruct N as [|d|d c H]; [exact F| |]; destruct d; discriminate.
Qed.
Lemma tried_all ds d : d <> [] -> tried (ds ++ [d]) = ds ++ [d].
Proof.
  intros N. induction ds as [|e ds IH]; [destruct d; [contradiction|reflexivity]|].
  destruct ds as [|g ds]; [simpl in *; rewrite IH; reflexivity|].
  change ((e :: g :: ds) ++ [d]) with (e :: g :: (ds ++ [d])). rewrite tried_cons. f_equal. exact IH.
Qed.
Lemma tried_drop ds : tried (ds ++ [[]]) = ds.
Proof.
  induction ds as [|e ds IH]; [reflexivity|]. destruct ds as [|g ds]; [reflexivity|].
  change ((e :: g :: ds) ++ [[]]) with (e :: g :: (ds ++ [[]])). rewrite tried_cons. f_equal. exact IH.
Qed.
Lemma joined_app ds es : ds <> [] -> es <> [] -> joined (ds ++ es) = joined ds ++ ":"%char :: joined es.
Proof.
  intros D E. induction ds as [|d ds IH]; [contradiction|]. destruct ds as [|g ds].
  - destruct es as [|e es]; [contradiction|]. reflexivity.
  - change ((d :: g :: ds) ++ es) with (d :: g :: (ds ++ es)). rewrite !joined_cons.
    change (g :: (ds ++ es)) with ((g :: ds) ++ es).
    rewrite IH by discriminate. rewrite <- app_assoc. reflexivity.
Qed.

(* ---- the theorems ---- *)


Lemma joined_one ds : forall es, ds <> [] -> es <> [] -> Forall plain ds -> Forall plain es ->
  joined ds = joined es -> ds = es.
Proof.
  induction ds as [|d ds IH]; intros es D E P Q H; [contradiction|].
  destruct es as [|e es]; [contradiction|].
  inversion P as [|x y Pd Ps]; subst. inversion Q as [|x y Qe Qs]; subst.
  destruct ds as [|d' ds]; destruct es as [|e' es].
  - simpl in H. subst. reflexivity.
  - exfalso. rewrite joined_cons in H. simpl in H. subst d. apply Pd. apply in_or_app. right. left. reflexivity.
  - exfalso. rewrite joined_cons in H. simpl in H. subst e. apply Qe. apply in_or_app. right. left. reflexivity.
  - rewrite !joined_cons in H. apply (f_equal item) in H.
    rewrite (item_sep _ _ Pd), (item_sep _ _ Qe) in H. injection H as H1 H2. subst e. f_equal.
    apply IH; [discriminate|discriminate|exact Ps|exact Qs|exact H2].
Qed.

(* ---- the theorems ---- *)

(* Every path is directories with colons between, in exactly one way. *)
Theorem C81_every_path p : exists ds, ds <> [] /\ Forall plain ds /\ joined ds = p /\
  forall es, es <> [] -> Forall plain es -> joined es = p -> es = ds.
Proof.
  assert (X : exists ds, ds <> [] /\ Forall plain ds /\ joined ds = p).
  { induction p as [|c p IH].
    - exists [[]]. repeat split; [discriminate|]. constructor; [intros []|constructor].
    - destruct IH as (ds & N & P & J). destruct ds as [|d ds]; [contradiction|].
      destruct (Ascii.eqb_spec c ":") as [->|C].
      + exists ([] :: d :: ds). repeat split; [discriminate| |rewrite joined_cons, J; reflexivity].
        constructor; [intros []|exact P].
      + exists ((c :: d) :: ds). inversion P as [|x y Pd Ps]; subst x y. repeat split; [discriminate| |].
        * constructor; [|exact Ps]. intros [F|I]; [exact (C F)|exact (Pd I)].
        * subst p. destruct ds; reflexivity. }
  destruct X as (ds & N & P & J). exists ds. repeat split; try assumption.
  intros es E Q H. symmetry. apply joined_one; try assumption. congruence.
Qed.

(* The search ends, whatever the path and whatever can be read. *)
Theorem C81_ends f p : exists n e, findfile access f p = Returned n e.
Proof.
  destruct (C81_every_path p) as (ds & _ & P & <- & _). unfold findfile.
  destruct (search_ok f ds P (S (length (joined ds))) (Nat.lt_succ_diag_r _)) as [(m & e & _ & H)|(_ & e & H)]; eauto.
Qed.

(* For a path whose last directory is not empty it returns a name exactly when that is the first that can be read. *)
Theorem C81_found f ds d n : f <> [] -> n <> [] -> Forall plain (ds ++ [d]) -> d <> [] ->
  (exists e, findfile access f (joined (ds ++ [d])) = Returned n e) <-> first access f (ds ++ [d]) n.
Proof.
  intros F N P D. unfold findfile.
  destruct (search_ok f _ P (S (length (joined (ds ++ [d])))) (Nat.lt_succ_diag_r _)) as [(m & e & A & H)|(A & e & H)];
    rewrite (tried_all _ _ D) in A; rewrite H; split.
  - intros [b E]. injection E as -> _. exact A.
  - intros B. exists e. rewrite (first_one _ _ _ _ A B). reflexivity.
  - intros [b E]. injection E as E _. congruence.
  - intros B. exfalso. exact (first_somewhere _ _ _ B A).
Qed.

(* It returns the empty text exactly when the file can be read in none of them. *)
Theorem C81_none f ds d : f <> [] -> Forall plain (ds ++ [d]) -> d <> [] ->
  (exists e, findfile access f (joined (ds ++ [d])) = Returned [] e) <-> nowhere access f (ds ++ [d]).
Proof.
  intros F P D. unfold findfile.
  destruct (search_ok f _ P (S (length (joined (ds ++ [d])))) (Nat.lt_succ_diag_r _)) as [(m & e & A & H)|(A & e & H)];
    rewrite (tried_all _ _ D) in A; rewrite H; split.
  - intros [b E]. injection E as -> _. exfalso. exact (first_nonempty _ _ _ F A eq_refl).
  - intros B. exfalso. exact (first_somewhere _ _ _ A B).
  - intros _. exact A.
  - intros _. exists e. reflexivity.
Qed.

(* A colon at the end of a path changes nothing of the result. *)
Theorem C81_colon_at_end f ds d n : f <> [] -> Forall plain (ds ++ [d]) -> d <> [] ->
  (exists e, findfile access f (joined (ds ++ [d])) = Returned n e) <->
  (exists e, findfile access f (joined (ds ++ [d]) ++ [":"%char]) = Returned n e).
Proof.
  intros F P D. unfold findfile.
  assert (J : joined (ds ++ [d]) ++ [":"%char] = joined ((ds ++ [d]) ++ [[]])).
  { rewrite (joined_app (ds ++ [d]) [[]]); [reflexivity| |discriminate]. destruct ds; discriminate. }
  rewrite J.
  assert (P' : Forall plain ((ds ++ [d]) ++ [[]])).
  { apply Forall_app. split; [exact P|]. constructor; [intros []|constructor]. }
  destruct (search_ok f _ P (S (length (joined (ds ++ [d])))) (Nat.lt_succ_diag_r _)) as [(m & e & A & H)|(A & e & H)];
  destruct (search_ok f _ P' (S (length (joined ((ds ++ [d]) ++ [[]])))) (Nat.lt_succ_diag_r _)) as [(m' & e' & A' & H')|(A' & e' & H')];
    rewrite (tried_all _ _ D) in A; rewrite tried_drop in A'; rewrite H, H'.
  - rewrite (first_one _ _ _ _ A A'). split; intros [b E]; injection E as -> _; eauto.
  - exfalso. exact (first_somewhere _ _ _ A A').
  - exfalso. exact (first_somewhere _ _ _ A' A).
  - split; intros [b E]; injection E as <- _; eauto.
Qed.

(* A file that can be read is included under its own name; otherwise the path decides, and nothing found gives the
   empty name. *)
Theorem C81_include f ds d n : f <> [] -> Forall plain (ds ++ [d]) -> d <> [] ->
  include_opens access f (joined (ds ++ [d])) = Some n <->
  (access f = true /\ n = f) \/
  (access f = false /\ (first access f (ds ++ [d]) n \/ n = [] /\ nowhere access f (ds ++ [d]))).
Proof.
  intros F P D. unfold include_opens. destruct (access f) eqn:A.
  - split; [intros E; injection E as <-; left; split; reflexivity|].
    intros [[_ ->]|[E _]]; [reflexivity|discriminate].
  - destruct (C81_ends f (joined (ds ++ [d]))) as (m & e & H). rewrite H.
    destruct m as [|c m].
    + pose proof (proj1 (C81_none f ds d F P D) (ex_intro _ e H)) as W. split.
      * intros E. injection E as <-. right. split; [reflexivity|]. right. split; [reflexivity|exact W].
      * intros [[E _]|[_ [B|[-> _]]]]; [discriminate| |reflexivity]. exfalso. exact (first_somewhere _ _ _ B W).
    + assert (W : first access f (ds ++ [d]) (c :: m)).
      { apply (C81_found f ds d (c :: m) F); [discriminate|exact P|exact D|]. exists e. exact H. }
      split.
      * intros E. injection E as <-. right. split; [reflexivity|]. left. exact W.
      * intros [[E _]|[_ [B|[_ B]]]]; [discriminate| |exfalso; exact (first_somewhere _ _ _ W B)].
        rewrite (first_one _ _ _ _ W B). reflexivity.
Qed.

(* load goes on with a name exactly when: it starts with a slash or a dot and can be read as it is, or it does not and
   is the first along the path.  The path is not used for the former. *)
Theorem C81_load c f ds d n : Forall plain (ds ++ [d]) -> d <> [] ->
  load_finds access (c :: f) (joined (ds ++ [d])) = Goes_on n <->
  ((c = "/"%char \/ c = "."%char) /\ n = c :: f /\ access n = true) \/
  (c <> "/"%char /\ c <> "."%char /\ first access (c :: f) (ds ++ [d]) n).
Proof.
  intros P D. unfold load_finds.
  destruct (Ascii.eqb_spec c "/") as [E1|N1]; [|destruct (Ascii.eqb_spec c ".") as [E2|N2]]; cbn [orb].
  - destruct (access (c :: f)) eqn:A; split.
    + intros E. injection E as <-. left. auto.
    + intros [(_ & -> & _)|(X & _)]; [reflexivity|contradiction].
    + discriminate.
    + intros [(_ & -> & B)|(X & _)]; [congruence|contradiction].
  - destruct (access (c :: f)) eqn:A; split.
    + intros E. injection E as <-. left. auto.
    + intros [(_ & -> & _)|(_ & X & _)]; [reflexivity|contradiction].
    + discriminate.
    + intros [(_ & -> & B)|(_ & X & _)]; [congruence|contradiction].
  - assert (F : c :: f <> []) by discriminate.
    destruct (C81_ends (c :: f) (joined (ds ++ [d]))) as (m & e & H). rewrite H. destruct m as [|x m].
    + pose proof (proj1 (C81_none (c :: f) ds d F P D) (ex_intro _ e H)) as W. split; [discriminate|].
      intros [([X|X] & _)|(_ & _ & B)]; [contradiction|contradiction|exfalso; exact (first_somewhere _ _ _ B W)].
    + assert (W : first access (c :: f) (ds ++ [d]) (x :: m)).
      { apply (C81_found (c :: f) ds d (x :: m) F); [discriminate|exact P|exact D|]. exists e. exact H. }
      split.
      * intros E. injection E as <-. right. auto.
      * intros [([X|X] & _)|(_ & _ & B)]; [contradiction|contradiction|].
        rewrite (first_one _ _ _ _ W B). reflexivity.
Qed.

(* The directories of LD_LIBRARY_PATH come before those built in. *)
Theorem C81_plugins c f ls l bs b n : c <> "/"%char -> c <> "."%char ->
  Forall plain (ls ++ [l]) -> Forall plain (bs ++ [b]) -> l <> [] -> b <> [] ->
  load_finds access (c :: f) (plug_path (joined (ls ++ [l])) (joined (bs ++ [b]))) = Goes_on n <->
  first access (c :: f) (ls ++ [l]) n \/
  (nowhere access (c :: f) (ls ++ [l]) /\ first access (c :: f) (bs ++ [b]) n).
Proof.
  intros N1 N2 P Q L B.
  assert (J : plug_path (joined (ls ++ [l])) (joined (bs ++ [b])) = joined (((ls ++ [l]) ++ bs) ++ [b])).
  { rewrite <- (app_assoc (ls ++ [l]) bs [b]), (joined_app (ls ++ [l]) (bs ++ [b]));
      [|destruct ls; discriminate|destruct bs; discriminate].
    unfold plug_path. destruct (joined (ls ++ [l])) as [|x p] eqn:E.
    - exfalso. destruct ls as [|y ls]; [exact (L E)|].
      simpl in E. destruct (ls ++ [l]) as [|z zs] eqn:Z; [destruct ls; discriminate|].
      destruct y; discriminate.
    - rewrite <- app_assoc. reflexivity. }
  rewrite J, C81_load; [|rewrite <- app_assoc; apply Forall_app; split; assumption|exact B].
  rewrite <- (app_assoc (ls ++ [l]) bs [b]). remember (ls ++ [l]) as xs eqn:EX. remember (bs ++ [b]) as ys eqn:EY.
  clear EX EY J P Q L B.
  assert (G : first access (c :: f) (xs ++ ys) n <->
    first access (c :: f) xs n \/ nowhere access (c :: f) xs /\ first access (c :: f) ys n).
  { induction xs as [|x xs IH].
    - simpl. split; [intros H; right; split; [intros ? ? []|exact H]|].
      intros [H|[_ H]]; [inversion H|exact H].
    - simpl. split.
      + intros H. inversion H as [? ? ? X A|? ? ? m X A R]; subst.
        * left. apply first_this; assumption.
        * apply IH in R. destruct R as [R|[W R]]; [left; eapply first_later; eassumption|].
          right. split; [|exact R]. intros y k [<-|I] Y; [rewrite (names_one _ _ _ _ Y X); exact A|exact (W y k I Y)].
      + intros [H|[W H]].
        * inversion H as [? ? ? X A|? ? ? m X A R]; subst; [apply first_this; assumption|].
          eapply first_later; [exact X|exact A|]. apply IH. left. exact R.
        * eapply first_later; [apply (ended_names (c :: f) x)| |].
          -- apply (W x); [left; reflexivity|apply ended_names].
          -- apply IH. right. split; [|exact H]. intros y k I. apply W. right. exact I. }
  rewrite <- G. split; [intros [([X|X] & _)|(_ & _ & H)]; [contradiction|contradiction|exact H]|auto].
Qed.

End Any.

(* An empty directory means the current one, but not at the end of the path. *)
Theorem C81_empty_last_refuted : ~ (forall access f ds n, f <> [] -> n <> [] -> ds <> [] -> Forall plain ds ->
  (exists e, findfile access f (joined ds) = Returned n e) <-> first access f ds n).
Proof.
  intros H. pose (f := ["x"%char]).
  assert (P : Forall plain [["d"%char]; []]).
  { constructor; [|constructor; [|constructor]]; intros X; [destruct X as [X|[]]; discriminate|exact X]. }
  destruct (H (fun t => if list_eq_dec ascii_dec t f then true else false) f [["d"%char]; []] f
              ltac:(discriminate) ltac:(discriminate) ltac:(discriminate) P) as [_ G].
  destruct G as [e E].
  - apply first_later with (m := ["d"; "/"; "x"]%char); [|reflexivity|].
    + apply (names_plain f [] "d"%char). discriminate.
    + apply first_this; [apply names_here|reflexivity].
  - vm_compute in E. discriminate.
Qed.

(* The end of the path is dereferenced before it is compared with the end: whenever nothing is found and the last
   directory is not empty. *)
Theorem C81_at_end_refuted : forall access f ds d, f <> [] -> Forall plain (ds ++ [d]) -> d <> [] ->
  nowhere access f (ds ++ [d]) -> findfile access f (joined (ds ++ [d])) = Returned [] true.
Proof.
  intros access f ds d F P D W. unfold findfile.
  assert (G : forall n, length (joined (ds ++ [d])) < n -> search access n f (joined (ds ++ [d])) = Returned [] true);
    [|apply G; lia].
  induction ds as [|e ds IH]; intros n L.
  - destruct n as [|n]; [lia|]. simpl in L, P |- *. destruct d as [|c d]; [contradiction|].
    inversion P as [|x y Pd _]; subst x y. rewrite (item_last _ Pd).
    rewrite (W (c :: d) _ (or_introl eq_refl) (ended_names f (c :: d))). reflexivity.
  - inversion P as [|x y Pe Ps]; subst x y. destruct n as [|n]; [lia|].
    assert (J : joined ((e :: ds) ++ [d]) = e ++ ":"%char :: joined (ds ++ [d])).
    { change (e :: ds) with ([e] ++ ds). rewrite <- app_assoc, joined_app;
        [reflexivity|discriminate|destruct ds; discriminate]. }
    rewrite J in *. rewrite app_length in L. cbn [length] in L.
    assert (S1 : search access (S n) f (e ++ ":"%char :: joined (ds ++ [d])) = search access n f (joined (ds ++ [d]))).
    { cbn [search]. rewrite (item_sep _ _ Pe), (W e _ (or_introl eq_refl) (ended_names f e)). destruct e; reflexivity. }
    rewrite S1. apply IH; [exact Ps| |lia]. intros x m I. apply W. right. exact I.
Qed.

(* The path may be empty, as when the variable is not set; then nothing is searched, not even the current directory. *)
Theorem C81_no_path access f : findfile access f [] = Returned [] false.
Proof. reflexivity. Qed.

(* The warning for a file to include that is found nowhere does not tell which file: it is the same for all of them. *)
Theorem C81_unnamed_refuted : forall access fopen f g ds d, f <> [] -> g <> [] -> Forall plain (ds ++ [d]) -> d <> [] ->
  access f = false -> access g = false -> nowhere access f (ds ++ [d]) -> nowhere access g (ds ++ [d]) ->
  include_warns access fopen f (joined (ds ++ [d])) = include_warns access fopen g (joined (ds ++ [d])).
Proof.
  intros access fopen f g ds d F G P D A B V W. unfold include_warns.
  rewrite (proj2 (C81_include access f ds d [] F P D)), (proj2 (C81_include access g ds d [] G P D)); auto.
Qed.

(* ---- cases ---- *)

(* two directories, one written with a slash and one without; only the second holds the file *)
Definition t (s : string) : list ascii := list_ascii_of_string s.
Definition only (s : string) : list ascii -> bool := fun x => if list_eq_dec ascii_dec x (t s) then true else false.
Example C81_case_second : findfile (only "/b/x.so") (t "x.so") (t "/a/:/b") = Returned (t "/b/x.so") true.
Proof. reflexivity. Qed.
Example C81_case_slash : findfile (only "/a/x.so") (t "x.so") (t "/a/:/b") = Returned (t "/a/x.so") false.
Proof. reflexivity. Qed.
Example C81_case_here : findfile (only "x.so") (t "x.so") (t "/a::/b") = Returned (t "x.so") false.
Proof. reflexivity. Qed.
Example C81_case_none : findfile (only "/c/x.so") (t "x.so") (t "/a::/b") = Returned [] true.
Proof. reflexivity. Qed.
Example C81_case_path : joined [t "/a"; []; t "/b"] = t "/a::/b" /\ Forall plain [t "/a"; []; t "/b"].
Proof. split; [reflexivity|]. repeat constructor; unfold plain; simpl; intuition discriminate. Qed.
Example C81_case_colon : findfile (only "x") (t "x") (t "/a:") = Returned [] false.
Proof. reflexivity. Qed.
Example C81_case_include : include_opens (only "m.ckt") (t "m.ckt") (t "/a:/b") = Some (t "m.ckt").
Proof. reflexivity. Qed.
Example C81_case_load : load_finds (only "./x.so") (t "./x.so") (t "/a:/b") = Goes_on (t "./x.so").
Proof. reflexivity. Qed.
Example C81_case_plugins :
  load_finds (fun _ => true) (t "x.so") (plug_path (t "/l") (t "/usr:/b")) = Goes_on (t "/l/x.so") /\
  load_finds (only "/b/x.so") (t "x.so") (plug_path (t "/l") (t "/usr:/b")) = Goes_on (t "/b/x.so").
Proof. split; reflexivity. Qed.

Example C81_case_unnamed :
  include_warns (only "other") (fun x => match x with [] => Some (t "No such file") | _ => None end) (t "m.ckt") (t "/a:/b") =
    Some (Some (t ":No such file")).
Proof. reflexivity. Qed.

Print Assumptions C81_every_path.
Print Assumptions C81_ends.
Print Assumptions C81_found.
Print Assumptions C81_none.
Print Assumptions C81_colon_at_end.
Print Assumptions C81_include.
Print Assumptions C81_load.
Print Assumptions C81_plugins.
Print Assumptions C81_empty_last_refuted.
Print Assumptions C81_at_end_refuted.
Print Assumptions C81_no_path.
Print Assumptions C81_unnamed_refuted.
