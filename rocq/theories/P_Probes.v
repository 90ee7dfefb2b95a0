(* C69: print, plot, alarm and store lists hold what was asked for, never point to an object that is gone, and what is
   stored is found again. *)
Require Import ZArith QArith List Ascii String Bool Lia.
Require Import Verif.Loops Verif.Wmatch_Model Verif.CS_Model Verif.CS_Proofs Verif.CS_Ops Verif.CS_Float Verif.CS_Word Verif.Verilog_Proofs
  Verif.Probes_Model Verif.Probes_Proofs Verif.Probes_Text Verif.Probes_Cmd Verif.Probes_Canon.
Import ListNotations.
Local Open Scope Z_scope.

(* the operations that may come next: an object is built where there is none, destroyed where there is one, and a
   command sees objects that exist *)
Definition allowed (w : world) (x : op) : Prop :=
  match x with
  | New o => w_live w o = false
  | Delete o => w_live w o = true
  | Command _ sc _ => forall o, within sc o -> w_live w o = true
  | Run _ _ | Fail _ => True
  end.
(* the probes of all lists *)
Definition all_kinds : list kind := [k_alarm; k_plot; k_print; k_store].
Definition all_probes (ls : lists) : list probe := List.concat (map (fun k => List.concat (map (fun m => ls k m) modes)) all_kinds).
Definition probes (o : Z) (p : probe) : bool := match p_obj p with Some k => k =? o | None => false end.

Section P.
Variables (ci : bool) (u : units) (grow : list probe -> bool) (ll : Z -> list ascii).
Inductive reached : world -> Prop :=
| r_start : reached world0
| r_step : forall w x w', reached w -> allowed w x -> step ci u grow ll w x = Done w' -> reached w'.

Definition inv (w : world) : Prop := agree (w_counts w) (w_lists w) /\ all_live (w_live w) (w_lists w).
Lemma total_all : forall o ls, total o ls = Z.of_nat (List.length (filter (probes o) (all_probes ls))).
Proof.
  intros o ls. change (probes o) with (on o). change (Z.of_nat (List.length (filter (on o) (all_probes ls)))) with (num o (all_probes ls)).
  unfold total, all_probes, list_prod, kinds, all_kinds, modes. cbn [map List.concat fst snd app fold_right]. rewrite !num_app, ?num_nil. lia.
Qed.
Lemma in_all : forall ls p, In p (all_probes ls) <-> exists k m, In p (ls k m).
Proof.
  intros ls p. unfold all_probes. split.
  - intros I. apply in_concat in I. destruct I as (x & I & J). apply in_map_iff in I. destruct I as (k & <- & _). apply in_concat in J. destruct J as (y & I & J).
    apply in_map_iff in I. destruct I as (m & <- & _). now exists k, m.
  - intros (k & m & I). apply in_concat. exists (List.concat (map (fun m => ls k m) modes)). split; [apply in_map_iff; exists k; split; [reflexivity|destruct k; cbn; auto]|].
    apply in_concat. exists (ls k m). split; [apply in_map_iff; exists m; split; [reflexivity|destruct m; cbn; auto 8]|exact I].
Qed.
Lemma none_on : forall o ls live, all_live live ls -> live o = false -> total o ls = 0.
Proof.
  intros o ls live A L. rewrite total_all. destruct (filter (probes o) (all_probes ls)) as [|p l] eqn:E; [reflexivity|].
  assert (I : In p (filter (probes o) (all_probes ls))) by (rewrite E; now left). apply filter_In in I. destruct I as [I H]. apply in_all in I. destruct I as (k & m & I).
  unfold probes in H. destruct (p_obj p) as [z|] eqn:Ep; [|discriminate H]. apply Z.eqb_eq in H. subst z. rewrite (A k m p o I Ep) in L. discriminate L.
Qed.
Lemma step_inv : forall w x, inv w -> allowed w x ->
  ends (match x with Command _ _ line => stuck line | _ => False end) inv (step ci u grow ll w x) /\
  (match x with Command _ _ _ => True | _ => step ci u grow ll w x <> Undef end).
Proof.
  intros w x [A L] H. destruct x as [o|o|k sc line|m pts|m]; cbn [step allowed] in *.
  - split; [|discriminate]. split; cbn [w_counts w_lists w_live].
    + intros o'. unfold set_count. destruct (Z.eqb_spec o' o) as [->|_]; [symmetry; now apply none_on with (w_live w)|apply A].
    + intros k m p o' I E. destruct (o' =? o); [reflexivity|]. now apply (L k m p).
  - destruct (delete_ok o w A) as (c & ls & E & A' & W). rewrite E. split; [|discriminate]. split; [exact A'|]. cbn [w_live w_lists].
    intros k m p o' I Eo. rewrite W in I. unfold without in I. apply filter_In in I. destruct I as [I N]. unfold on in N. rewrite Eo in N.
    destruct (o' =? o); [discriminate N|]. now apply (L k m p).
  - split; [|exact I]. pose proof (do_probe_ok ci u grow ll (w_live w) sc H line (S (List.length line)) k (w_lists w) (w_counts w) A L) as K.
    apply ends_bind with (P := fun x => match x with (ls', c', _) => kept (w_live w) k (w_lists w) c' ls' end).
    + apply ends_imp with (1 := K); [|auto]. intros [X|X]; [lia|exact X].
    + intros [[ls' c'] b] (A' & L' & _). split; [exact A'|exact L'].
  - rewrite run_ok. split; [|discriminate]. split; [exact A|exact L].
  - split; [|discriminate]. split; [exact A|exact L].
Qed.
Lemma reached_inv : forall w, reached w -> inv w.
Proof.
  intros w H. induction H as [|w x w' _ IH Al E].
  - split; [intros o; reflexivity|intros k m p o []].
  - pose proof (proj1 (step_inv w x IH Al)) as K. rewrite E in K. exact K.
Qed.

(* The count kept in an object is the number of probes on it, over all lists; so it is zero exactly when an object
   has no probe; and no probe is on an object that does not exist. *)
Theorem C69_no_dangling_probe : forall w, reached w ->
  (forall o, w_counts w o = Z.of_nat (List.length (filter (probes o) (all_probes (w_lists w))))) /\
  (forall k m p o, In p (w_lists w k m) -> p_obj p = Some o -> w_live w o = true).
Proof. intros w H. destruct (reached_inv w H) as [A L]. split; [intros o; rewrite (A o); apply total_all|exact L]. Qed.

(* No step runs into a failed assert.  Building, destroying and analysing always end; a command ends unless its text
   has = [ or ] in it. *)
Theorem C69_steps_end : forall w x, reached w -> allowed w x ->
  step ci u grow ll w x <> Assert /\
  match x with
  | Command _ _ line => step ci u grow ll w x = NoEnd -> exists c, In c (str "=[]") /\ In c line
  | _ => exists w', step ci u grow ll w x = Done w'
  end.
Proof.
  intros w x R H. destruct (step_inv w x (reached_inv w R) H) as [K N].
  assert (Nd : step ci u grow ll w x <> Assert) by (intros E; rewrite E in K; exact K). split; [exact Nd|].
  destruct (step ci u grow ll w x) as [w'| | |]; destruct x; try (now exists w'); try congruence; try (now destruct K).
  intros _. exact K.
Qed.

(* Destroying an object takes the probes on it out of every list and leaves the others in their order. *)
Theorem C69_delete : forall w o, reached w -> w_live w o = true ->
  exists w', step ci u grow ll w (Delete o) = Done w' /\ w_mode w' = w_mode w /\
    (forall k m, w_lists w' k m = filter (fun p => negb (probes o p)) (w_lists w k m)) /\
    (forall x, w_live w' x = if x =? o then false else w_live w x).
Proof.
  intros w o R H. destruct (delete_ok o w (proj1 (reached_inv w R))) as (c & ls & E & _ & W).
  eexists. split; [exact E|]. split; [reflexivity|]. split; [exact W|reflexivity].
Qed.

(* A command, whatever its text, changes only the lists of its own kind; no object and no wave. *)
Theorem C69_other_kinds : forall w k sc line w', reached w -> (forall o, within sc o -> w_live w o = true) ->
  step ci u grow ll w (Command k sc line) = Done w' ->
  (forall k' m, k' <> k -> w_lists w' k' m = w_lists w k' m) /\ w_live w' = w_live w /\ w_waves w' = w_waves w.
Proof.
  intros w k sc line w' R H E. destruct (reached_inv w R) as [A L]. cbn [step] in E.
  pose proof (do_probe_ok ci u grow ll (w_live w) sc H line (S (List.length line)) k (w_lists w) (w_counts w) A L) as K.
  destruct (do_probe ci u grow ll (S (List.length line)) k sc (w_lists w, w_counts w) (cs_string line)) as [[[ls' c'] b]| | |]; try discriminate E.
  cbn [obind] in E. injection E as <-. destruct K as (_ & _ & K). split; [exact K|]. split; reflexivity.
Qed.

(* A command in plain form.  Its text is the word of an analysis, blanks, and items  sign what(name,name,...) each
   with blanks after it.  Only the list of that kind and analysis changes: it starts empty when the first item has no
   sign, as it was otherwise; a + item, or one without sign after one, puts a probe for every object that each name
   stands for at the end, in the order of the names; a - item, or one without sign after one, takes out the probes
   whose label matches what(name). *)
Theorem C69_command : forall w k sc pre word sp m l, reached w -> (forall o, within sc o -> w_live w o = true) ->
  spaces pre -> spells ci word m -> spaces sp -> sp <> [] -> l <> [] -> items_ok ci sc aADD l ->
  exists w', step ci u grow ll w (Command k sc (pre ++ word ++ sp ++ items_text l)) = Done w' /\
    w_lists w' k m = edited ci ll sc aADD (map fst l) (match first_sign (map fst l) with None => [] | Some _ => w_lists w k m end) /\
    forall k' m', (k', m') <> (k, m) -> w_lists w' k' m' = w_lists w k' m'.
Proof.
  intros w k sc pre word sp m l R H Fp Hw Fsp Nsp Nl Fl. destruct (reached_inv w R) as [A L].
  destruct (do_probe_run ci u grow ll (w_live w) sc H k (w_lists w) (w_counts w) pre word m sp l (S (List.length (pre ++ word ++ sp ++ items_text l))) A L Fp Hw Fsp Nsp Nl Fl)
    as (ls' & c' & E & _ & _ & El).
  { rewrite !app_length. assert (List.length l <= List.length (items_text l))%nat; [|lia]. clear -Fl. revert Fl. generalize aADD. induction l as [|[it s] l IH]; intros a Fl; [cbn; lia|].
    destruct Fl as (_ & Fi & Fl). destruct (item_head ci sc a it Fi) as (c & q & E & _). unfold items_text in *. cbn [map List.concat fst snd]. rewrite !app_length, E. cbn [List.length].
    specialize (IH _ Fl). lia. }
  cbn [step]. rewrite E. cbn [obind]. eexists. split; [reflexivity|]. cbn [w_lists]. rewrite El. split; [apply set_list_same|].
  intros k' m' N. now apply set_list_other.
Qed.
End P.

(* What a name stands for.  Without dots and without * and ? : the node with this key (or, when case is ignored and there is none, with the
   key in lower case), and the first element with this label.  With * or ? : every node but ground and every element whose label matches. *)
Definition named (ci : bool) (d : list ascii) (sc : scope) (o : Z) : Prop :=
  if existsb (fun c => Ascii.eqb c "*" || Ascii.eqb c "?") d then
    (exists key lab, In (key, (lab, o)) (nodes sc) /\ key <> str "0" /\ wmatch ci lab d = true) \/
    (exists k, In k (cards sc) /\ c_id k = o /\ wmatch ci (c_label k) d = true)
  else
    (exists a lab b, nodes sc = a ++ (d, (lab, o)) :: b /\ ~ In d (map fst a)) \/
    (ci = true /\ ~ In d (map fst (nodes sc)) /\ exists a lab b, nodes sc = a ++ (map to_lower d, (lab, o)) :: b /\ ~ In (map to_lower d) (map fst a)) \/
    (exists a k b, cards sc = a ++ k :: b /\ c_id k = o /\ map (fix_case ci) (c_label k) = map (fix_case ci) d /\
       forall k', In k' a -> map (fix_case ci) (c_label k') <> map (fix_case ci) d).
Lemma same_text_map : forall ci a b, same_text ci a b = true <-> map (fix_case ci) a = map (fix_case ci) b.
Proof.
  intros ci a. induction a as [|x a IH]; intros [|y b]; cbn [same_text map]; try (split; (reflexivity || discriminate)).
  rewrite andb_true_iff, Ascii.eqb_eq, IH. split; [intros [-> ->]; reflexivity|intros [= -> ->]; auto].
Qed.
Lemma same_text_eq : forall a b, same_text false a b = true <-> a = b.
Proof. intros a b. rewrite same_text_map. unfold fix_case. now rewrite !map_id. Qed.
Lemma map_find_first : forall d l o, map_find d l = Some o <-> exists a lab b, l = a ++ (d, (lab, o)) :: b /\ ~ In d (map fst a).
Proof.
  intros d l o. induction l as [|[k [lab x]] l IH]; cbn [map_find].
  - split; [discriminate|]. intros (a & lab & b & E & _). destruct a; discriminate E.
  - destruct (same_text false k d) eqn:E.
    + apply same_text_eq in E. subst k. split.
      * intros [= ->]. exists [], lab, l. split; [reflexivity|intros []].
      * intros (a & lab' & b & Eq & N). destruct a as [|y a]; [now injection Eq as _ -> _|]. injection Eq as <- _. elim N. now left.
    + assert (Ne : k <> d) by (intros ->; rewrite (proj2 (same_text_eq d d) eq_refl) in E; discriminate E). rewrite IH. split.
      * intros (a & lab' & b & -> & N). exists ((k, (lab, x)) :: a), lab', b. split; [reflexivity|]. intros [X|X]; [now apply Ne|now apply N].
      * intros (a & lab' & b & Eq & N). destruct a as [|y a]; [injection Eq as ? _; congruence|]. injection Eq as <- ->. exists a, lab', b. split; [reflexivity|]. intros X. apply N. now right.
Qed.
Lemma map_find_out : forall d l, map_find d l = None <-> ~ In d (map fst l).
Proof.
  intros d l. induction l as [|[k [lab x]] l IH]; cbn [map_find map fst]; [split; [intros _ []|reflexivity]|].
  destruct (same_text false k d) eqn:E.
  - apply same_text_eq in E. subst k. split; [discriminate|]. intros N. elim N. now left.
  - rewrite IH. assert (Ne : k <> d) by (intros ->; rewrite (proj2 (same_text_eq d d) eq_refl) in E; discriminate E). cbn [In]. tauto.
Qed.
Lemma find_card_first : forall ci d l o, find_card ci d l = Some o <-> exists a k b, l = a ++ k :: b /\ c_id k = o /\ map (fix_case ci) (c_label k) = map (fix_case ci) d /\
       forall k', In k' a -> map (fix_case ci) (c_label k') <> map (fix_case ci) d.
Proof.
  intros ci d l o. induction l as [|k l IH]; cbn [find_card].
  - split; [discriminate|]. intros (a & k & b & E & _). destruct a; discriminate E.
  - destruct (same_text ci (c_label k) d) eqn:E.
    + apply same_text_map in E. split.
      * intros [= <-]. exists [], k, l. repeat split; auto.
      * intros (a & k1 & b & Eq & <- & _ & N). destruct a as [|y a]; [now injection Eq as -> _|]. injection Eq as <- _. elim (N k); [now left|exact E].
    + assert (Ne : map (fix_case ci) (c_label k) <> map (fix_case ci) d) by (intros X; apply same_text_map in X; rewrite X in E; discriminate E). rewrite IH. split.
      * intros (a & k1 & b & -> & I & M & N). exists (k :: a), k1, b. repeat split; auto. intros k' [<-|X]; auto.
      * intros (a & k1 & b & Eq & I & M & N). destruct a as [|y a]; [injection Eq as <- _; contradiction|]. injection Eq as <- ->. exists a, k1, b. repeat split; auto. intros k' X. apply N. now right.
Qed.
Lemma named_ok : forall ci d sc o, In o (add_here ci d sc) <-> named ci d sc o.
Proof.
  intros ci d sc o. unfold add_here, named, has_wild. destruct (existsb _ d).
  - rewrite in_app_iff, !in_flat_map. split; (intros [K|K]; [left|right]).
    + destruct K as ((key & lab & x) & I & J). cbn [fst snd] in J. destruct (same_text false key (str "0")) eqn:E; cbn [negb andb] in J; [destruct J|].
      destruct (wmatch ci lab d) eqn:W; [|destruct J]. destruct J as [<-|[]]. exists key, lab. split; [exact I|]. split; [|exact W]. intros ->. discriminate E.
    + destruct K as (k & I & J). destruct (wmatch ci (c_label k) d) eqn:W; [|destruct J]. destruct J as [<-|[]]. now exists k.
    + destruct K as (key & lab & I & N & W). exists (key, (lab, o)). split; [exact I|]. cbn [fst snd]. rewrite W.
      destruct (same_text false key (str "0")) eqn:E; [apply same_text_eq in E; contradiction|]. now left.
    + destruct K as (k & I & <- & W). exists k. split; [exact I|]. rewrite W. now left.
  - rewrite in_app_iff. rewrite <- find_card_first, <- !map_find_first, <- map_find_out. unfold node_named.
    assert (Q1 : forall x, In o (opt_list x) <-> x = Some o) by (intros [z|]; cbn; [split; [intros [->|[]]; reflexivity|intros [= ->]; now left]|split; [intros []|discriminate]]).
    rewrite !Q1. destruct (map_find d (nodes sc)); [|destruct ci]; intuition congruence.
Qed.
(* With dots: the pieces of the name are one piece that is looked up as above and the containers on the way to it.  The containers
   may be written before it, the outermost first, or after it, the outermost last, or some before and some after: what is before and
   what is after, backwards, are shuffled into the way down.  Every container is an element that has an inside and whose label matches. *)
Inductive way (ci : bool) : scope -> list (list ascii) -> scope -> Prop :=
| w_here : forall sc, way ci sc [] sc
| w_into : forall sc l o inner pat ps sc', In (Card l o true (Some inner)) (cards sc) -> wmatch ci l pat = true ->
    way ci inner ps sc' -> way ci sc (pat :: ps) sc'.
Theorem C69_names : forall ci pieces sc o, pieces <> [] -> Forall (fun p => ~ In "."%char p) pieces ->
  (In o (add_branches ci (join pieces) sc) <->
   exists before d after path inner, pieces = before ++ d :: after /\ shuffle before (rev after) path /\ way ci sc path inner /\ named ci d inner o).
Proof.
  intros ci pieces sc o N F. assert (W : forall a b c, down ci a b c <-> way ci a b c) by (intros a b c; split; induction 1; econstructor; eassumption).
  unfold add_branches. rewrite add_branches_n_ok; [|exact N|exact F|].
  - unfold leads. split; intros (f & d & b & path & inner & E & Sh & Dn & I); exists f, d, b, path, inner; (split; [exact E|]; split; [exact Sh|]; split; [now apply W|now apply named_ok]).
  - clear F. assert (G : forall ps : list (list ascii), (List.length ps <= S (List.length (join ps)))%nat); [|apply G].
    induction ps as [|x ps IH]; [cbn; lia|]. destruct ps as [|y ps]; [cbn; lia|]. change (join (x :: y :: ps)) with (x ++ "."%char :: join (y :: ps)). rewrite app_length. cbn [List.length] in *. lia.
Qed.

(* After an analysis the wave found under a name is the one of the first probe of its store list whose label matches the
   name: at every point of output, the value of this probe.  No other list and no earlier analysis has a part in it. *)
Theorem C69_wave : forall ci u grow ll w m pts w' name, step ci u grow ll w (Run m pts) = Done w' ->
  find_wave ci ll name w' =
    Done (match find (fun p => wmatch ci (label ll p) name) (w_lists w k_store m) with
          | Some p => Some (map (fun pt => (fst pt, snd pt p)) pts)
          | None => None
          end).
Proof.
  intros ci u grow ll w m pts w' name E. cbn [step] in E. rewrite run_ok in E. injection E as <-. unfold find_wave. cbn [w_lists w_mode w_waves].
  pose proof (find_wave_loop_ok ci ll name (w_lists w k_store m) 0) as K. destruct (find_wave_loop ci ll name 0 (w_lists w k_store m)) as [j|].
  - destruct K as (a & p & b & El & Ej & M & N). rewrite El. cbn [Nat.add] in Ej. subst j.
    rewrite map_app. cbn [map]. rewrite nth_error_app2 by (rewrite map_length; lia). rewrite map_length, Nat.sub_diag. cbn [nth_error].
    assert (Ef : find (fun p => wmatch ci (label ll p) name) (a ++ p :: b) = Some p).
    { clear El. induction a as [|x a IH]; cbn [app find]; [now rewrite M|]. rewrite N by now left. apply IH. intros q I. apply N. now right. }
    rewrite Ef. reflexivity.
  - assert (Ef : find (fun p => wmatch ci (label ll p) name) (w_lists w k_store m) = None).
    { induction (w_lists w k_store m) as [|x a IH]; cbn [find]; [reflexivity|]. rewrite K by now left. apply IH. intros q I. apply K. now right. }
    now rewrite Ef.
Qed.

(* ---- examples ---- *)
Definition inside : scope := Scope [(str "a", (str "a", 30))] [Card (str "r2") 31 true None].
Definition circuit : scope :=
  Scope [(str "0", (str "0", 9)); (str "1", (str "1", 10)); (str "out", (str "out", 11))]
        [Card (str "R1") 20 true None; Card (str "X1") 21 true (Some inside)].
Definition long (o : Z) : list ascii :=
  match o with 9 => str "0" | 10 => str "1" | 11 => str "out" | 20 => str "R1" | 21 => str "X1" | 30 => str "X1.a" | 31 => str "X1.r2" | _ => [] end.
Definition doubling (l : list probe) : bool := existsb (Nat.eqb (List.length l)) [0; 1; 2; 4; 8]%nat.
Notation stp := (step true uSI doubling long).
Notation rn := (run true uSI doubling long).
Definition build : list op := [New 9; New 10; New 11; New 20; New 21; New 30; New 31].
Definition show (k : kind) (m : mode) (w : out world) : out (list string) :=
  match w with Done w => Done (map (fun p => string_of_list_ascii (label long p)) (w_lists w k m)) | Assert => Assert | Undef => Undef | NoEnd => NoEnd end.
Definition points : list (Q * (probe -> Q)) :=
  [(0, fun p => match p_obj p with Some o => inject_Z o | None => 0 end); (1, fun p => match p_obj p with Some o => inject_Z (2 * o) | None => 0 end)]%Q.
Definition find_in (n : string) (w : out world) : out (option wave) :=
  match w with Done w => find_wave true long (str n) w | Assert => Assert | Undef => Undef | NoEnd => NoEnd end.

Lemma run_app : forall ci u g ll a w b, run ci u g ll w (a ++ b) = (do w <- run ci u g ll w a; run ci u g ll w b).
Proof. intros ci u g ll a. induction a as [|x a IH]; intros w b; cbn [app run obind]; [reflexivity|]. destruct (step ci u g ll w x); cbn [obind]; auto. Qed.
Lemma run_snoc : forall ci u g ll a w x w1 w2, run ci u g ll w a = Done w1 -> step ci u g ll w1 x = Done w2 -> run ci u g ll w (a ++ [x]) = Done w2.
Proof. intros ci u g ll a w x w1 w2 E1 E2. rewrite run_app, E1. cbn [obind run]. now rewrite E2. Qed.

(* the objects of the circuit exist after this *)
Definition built : world := match rn world0 build with Done w => w | _ => world0 end.
Lemma reached_new : forall ci u g ll l w w', reached ci u g ll w -> NoDup l -> (forall o, In o l -> w_live w o = false) ->
  run ci u g ll w (map New l) = Done w' -> reached ci u g ll w'.
Proof.
  intros ci u g ll l. induction l as [|o l IH]; intros w w' R N F E; cbn [map run] in E; [injection E as <-; exact R|].
  inversion_clear N as [|? ? No Nl]. cbn [step obind] in E. refine (IH _ w' _ Nl _ E).
  - apply r_step with (1 := R) (x := New o); [apply F; now left|reflexivity].
  - intros x I. cbn [w_live]. destruct (Z.eqb_spec x o) as [->|_]; [contradiction|]. apply F. now right.
Qed.
Example built_reached : reached true uSI doubling long built.
Proof.
  apply (reached_new true uSI doubling long [9; 10; 11; 20; 21; 30; 31] world0); [apply r_start| |reflexivity|reflexivity].
  repeat constructor; cbn; intuition discriminate.
Qed.
Lemma within_inside : forall o, within inside o -> In o [30; 31].
Proof.
  intros o H. inversion H as [? k l ? I|? k I|? l x d inner ? I W]; subst; cbn in I.
  - destruct I as [[= <- <- <-]|[]]. now left.
  - destruct I as [<-|[]]. cbn. auto.
  - destruct I as [I|[]]. discriminate I.
Qed.
Lemma within_circuit : forall o, within circuit o -> In o [9; 10; 11; 20; 21; 30; 31].
Proof.
  intros o H. inversion H as [? k l ? I|? k I|? l x d inner ? I W]; subst; cbn in I.
  - repeat (destruct I as [[= <- <- <-]|I]; [cbn; auto 8|]). destruct I.
  - repeat (destruct I as [<-|I]; [cbn; auto 8|]). destruct I.
  - destruct I as [I|[I|[]]]; [discriminate I|]. injection I as <- <- <- <-. apply within_inside in W. cbn in W |- *. tauto.
Qed.
Lemma circuit_lives : forall w, w_live w = w_live built -> forall o, within circuit o -> w_live w o = true.
Proof. intros w -> o H. apply within_circuit in H. cbn in H. repeat (destruct H as [<-|H]; [reflexivity|]). destruct H. Qed.

(* print tran v(1,OUT,x1.a) i(r* ) : the hypotheses of C69_command hold, and this is the list *)
Definition items1 : list (item * list ascii) :=
  [(Item None (str "v") (str "1") [str "OUT"; str "x1.a"], str " "); (Item None (str "i") (str "r*") [], [])].
Example items1_ok : items_ok true circuit aADD items1.
Proof.
  assert (W : forall t w, w <> [] -> forallb (fun c => isgraph c && negb (existsb (Ascii.eqb c) t)) w = true -> word t w).
  { intros t w N H. split; [exact N|]. apply Forall_forall. intros c I. rewrite forallb_forall in H. apply H in I. apply andb_true_iff in I. destruct I as [G E]. split; [exact G|].
    intros J. apply negb_true_iff in E. assert (X : existsb (Ascii.eqb c) t = true) by (apply existsb_exists; exists c; split; [exact J|apply Ascii.eqb_refl]). rewrite X in E. discriminate E. }
  assert (Q : forall w, w <> [] -> forallb (fun c => isgraph c && negb (existsb (Ascii.eqb c) (str ",=()[]{};"))) w = true -> negb (existsb (Ascii.eqb (head w)) (QB ++ str "+-")) = true ->
    same_text true w (str "clear") = false -> what_ok true w).
  { intros w N H K C. split; [now apply W|]. split; [|exact C]. intros J. apply negb_true_iff in K.
    assert (X : existsb (Ascii.eqb (head w)) (QB ++ str "+-") = true) by (apply existsb_exists; exists (head w); split; [exact J|apply Ascii.eqb_refl]). rewrite X in K. discriminate K. }
  assert (N : forall w, w <> [] -> forallb (fun c => isgraph c && negb (existsb (Ascii.eqb c) (str ",=(){};"))) w = true -> isalpha (head w) || isdigit (head w) = true -> name_ok w).
  { intros w Nw H K. split; [now apply W|]. apply orb_true_iff in K. tauto. }
  split; [constructor; [reflexivity|constructor]|]. split.
  - split; [now apply Q|]. split; [now apply N|]. split; [discriminate|]. split; [reflexivity|].
    constructor; [split; [now apply N|vm_compute; discriminate]|]. constructor; [split; [now apply N|vm_compute; discriminate]|constructor].
  - split; [constructor|]. split; [|exact I]. split; [now apply Q|]. split; [now apply N|]. split; [discriminate|]. split; [reflexivity|constructor].
Qed.
Definition shown (l : list probe) : list string := map (fun p => string_of_list_ascii (label long p)) l.
Example C69_command_case :
  exists w', stp built (Command k_print circuit (str "tran v(1,OUT,x1.a) i(r*)")) = Done w' /\
    shown (w_lists w' k_print s_TRAN) = ["v(1)"; "v(out)"; "v(X1.a)"; "i(R1)"]%string.
Proof.
  destruct (C69_command true uSI doubling long built k_print circuit [] (str "tran") (str " ") s_TRAN items1 built_reached (circuit_lives built eq_refl)) as (w' & E & El & _);
    [constructor|exists "tran"%string; split; [cbn; auto 8|reflexivity]|repeat constructor|discriminate|discriminate|exact items1_ok|].
  exists w'. split; [exact E|]. rewrite El. reflexivity.
Qed.
(* then  print TRAN -v(o* ) +p(R1) v(0) *)
Example C69_command_case2 :
  show k_print s_TRAN (rn built [Command k_print circuit (str "tran v(1,OUT,a.x1) i(r*)"); Command k_print circuit (str "TRAN -v(o*) +p(R1) v(0)")])
  = Done ["v(1)"; "v(X1.a)"; "i(R1)"; "p(R1)"; "v(0)"]%string.
Proof. vm_compute. reflexivity. Qed.
(* destroying R1 *)
Example C69_delete_case :
  show k_print s_TRAN (rn built [Command k_print circuit (str "tran v(1) i(R1) v(out) p(R1)"); Delete 20]) = Done ["v(1)"; "v(out)"]%string.
Proof. vm_compute. reflexivity. Qed.
Example C69_counts_case : match rn built [Command k_print circuit (str "tran v(1) i(R1) p(R1)"); Command k_store circuit (str "ac i(r*)")] with
  | Done w => (w_counts w 20, w_counts w 10, w_counts w 11) = (3, 1, 0) | _ => False end.
Proof. vm_compute. reflexivity. Qed.
(* x1.a and a.x1 are the same node *)
Example C69_names_case : add_branches true (join [str "x1"; str "a"]) circuit = [30] /\ add_branches true (join [str "a"; str "x1"]) circuit = [30] /\
  add_branches true (str "?1") circuit = [20; 21].
Proof. vm_compute. repeat split. Qed.
Example C69_wave_case :
  find_in "v(o*)" (rn built [Command k_store circuit (str "tran v(1) v(out) i(R1)"); Run s_TRAN points]) = Done (Some [(0, 11); (1, 22)]%Q).
Proof. vm_compute. reflexivity. Qed.

(* ---- what does not hold ---- *)

Lemma reached_run : forall l w w', reached true uSI doubling long w -> w_live w = w_live built ->
  Forall (fun x => match x with Command _ sc _ => sc = circuit | Run _ _ | Fail _ => True | _ => False end) l ->
  rn w l = Done w' -> reached true uSI doubling long w' /\ w_live w' = w_live built.
Proof.
  intros l. induction l as [|x l IH]; intros w w' R L F E; cbn [run] in E; [injection E as <-; auto|].
  inversion_clear F as [|? ? Fx Fl]. destruct (stp w x) as [w1| | |] eqn:E1; try discriminate E. cbn [obind] in E.
  assert (Al : allowed w x) by (destruct x; cbn [allowed]; try exact I; try contradiction; subst sc; now apply circuit_lives).
  refine (IH w1 w' (r_step _ _ _ _ _ _ _ R Al E1) _ Fl E).
  destruct x as [| |k sc line|m pts|m]; try contradiction.
  - subst sc. destruct (C69_other_kinds _ _ _ _ _ _ _ _ _ R Al E1) as (_ & E2 & _). now rewrite E2.
  - cbn [step] in E1. rewrite run_ok in E1. injection E1 as <-. exact L.
  - cbn [step] in E1. injection E1 as <-. exact L.
Qed.
(* a state met by these examples *)
Definition after (l : list op) : world := match rn built l with Done w => w | _ => built end.
Lemma after_reached : forall l, Forall (fun x => match x with Command _ sc _ => sc = circuit | Run _ _ | Fail _ => True | _ => False end) l ->
  reached true uSI doubling long (after l) /\ w_live (after l) = w_live built.
Proof.
  intros l F. unfold after. destruct (rn built l) as [w| | |] eqn:E; try (split; [exact built_reached|reflexivity]).
  apply (reached_run l built w built_reached eq_refl F E).
Qed.

(* A command does not always end: for a text with a sign = no number of rounds is enough. *)
Lemma edit_stuck : forall st s s1 s2, more s = Some (true, s1) -> sign aADD s1 = Done (aADD, s2) ->
  add_list true uSI doubling circuit st s2 = Done (st, s) -> forall n, edit true uSI doubling long n circuit aADD st s = NoEnd.
Proof.
  intros st s s1 s2 E1 E2 E3 n. induction n as [|n IH]; [reflexivity|]. cbn [edit]. rewrite E1. cbn [txt obind negb]. rewrite E2. cbn [obind]. rewrite E3. exact IH.
Qed.
Theorem C69_command_ends_refuted : exists k line, forall n,
  do_probe true uSI doubling long n k circuit (w_lists built, w_counts built) (cs_string line) = NoEnd.
Proof.
  exists k_print, (str "tran ="). intros n. unfold do_probe.
  set (l := str "tran ="). 
  assert (E1 : sign aNEW (cs_string l) = Done (aNEW, cs_string l)) by (vm_compute; reflexivity). rewrite E1. cbn [obind].
  let v := eval vm_compute in (sim_word true sim_words (cs_string l)) in assert (E2 : sim_word true sim_words (cs_string l) = v) by (vm_compute; reflexivity).
  rewrite E2. cbn [obind]. match goal with |- context [more ?s] => let v := eval vm_compute in (more s) in change (more s) with v end. cbn [txt obind negb].
  match goal with |- context [umatch true ?p ?s] => let v := eval vm_compute in (umatch true p s) in change (umatch true p s) with v end. cbn [txt obind ok].
  match goal with |- context [sign aNEW ?s] => let v := eval vm_compute in (sign aNEW s) in change (sign aNEW s) with v end. cbn [obind fst snd].
  change (clear (w_lists built k_print s_TRAN, w_counts built)) with (@Done (list probe * counts) ([], w_counts built)). cbn [obind].
  destruct n as [|n]; [reflexivity|]. cbn [edit].
  match goal with |- context [more ?s] => let v := eval vm_compute in (more s) in change (more s) with v end. cbn [txt obind negb].
  match goal with |- context [sign aADD ?s] => let v := eval vm_compute in (sign aADD s) in change (sign aADD s) with v end. cbn [obind].
  match goal with |- context [add_list true uSI doubling circuit (?x, ?c) ?s] =>
    let v := eval cbv -[w_counts built] in (add_list true uSI doubling circuit (x, c) s) in change (add_list true uSI doubling circuit (x, c) s) with v end. cbn [obind].
  match goal with |- context [edit true uSI doubling long n circuit aADD ?st ?s] => rewrite (edit_stuck st s s s); [reflexivity| | |] end; vm_compute; reflexivity.
Qed.

(* A text that ends in // inside a range is read beyond its end. *)
Theorem C69_command_in_text_refuted : exists w line, reached true uSI doubling long w /\ stp w (Command k_print circuit line) = Undef.
Proof. exists built, (str "tran v(1)(0,//"). split; [exact built_reached|]. vm_compute. reflexivity. Qed.

(* A name with a * for the container and one for the inside is looked up forward and backward: every object twice. *)
Theorem C69_each_object_once_refuted : exists name, ~ NoDup (add_branches true name circuit) /\ NoDup (add_branches true (str "*") circuit) /\ NoDup (add_branches true (str "*") inside).
Proof.
  exists (str "*.*"). split; [|split; vm_compute; repeat constructor; cbn; intuition discriminate].
  vm_compute. intros N. inversion_clear N as [|? ? N1 _]. apply N1. cbn. auto.
Qed.

(* A name that begins with 0 is taken for ground, though there is a node of that name. *)
Theorem C69_name_from_zero_refuted : exists sc o w', In (str "05", (str "05", o)) (nodes sc) /\ (forall x, within sc x -> w_live built x = true) /\
  stp built (Command k_print sc (str "tran v(05)")) = Done w' /\ map p_obj (w_lists w' k_print s_TRAN) = [None].
Proof.
  exists (Scope [(str "05", (str "05", 10))] []), 10. eexists. split; [now left|]. split; [|split; [vm_compute; reflexivity|reflexivity]].
  intros x H. inversion H as [? k l ? I|? k I|? l ? d inner ? I W]; subst; cbn in I; try contradiction. destruct I as [[= <- <- <-]|[]]. reflexivity.
Qed.

(* A list that could be added with v(1,out) is not taken out with -v(1,out), *)
Theorem C69_remove_several_refuted : exists w w', reached true uSI doubling long w /\ shown (w_lists w k_print s_TRAN) = ["v(1)"; "v(out)"]%string /\
  stp w (Command k_print circuit (str "tran -v(1,out)")) = Done w' /\ shown (w_lists w' k_print s_TRAN) = ["v(out)"]%string.
Proof.
  exists (after [Command k_print circuit (str "tran v(1,out)")]). eexists. split; [apply after_reached; repeat constructor|]. split; [vm_compute; reflexivity|].
  split; [vm_compute; reflexivity|vm_compute; reflexivity].
Qed.
(* nor one that could be added with v(a.x1) with -v(a.x1). *)
Theorem C69_remove_backward_refuted : exists w w', reached true uSI doubling long w /\ shown (w_lists w k_print s_TRAN) = ["v(X1.a)"]%string /\
  w = after [Command k_print circuit (str "tran v(a.x1)")] /\
  stp w (Command k_print circuit (str "tran -v(a.x1)")) = Done w' /\ shown (w_lists w' k_print s_TRAN) = ["v(X1.a)"]%string.
Proof.
  exists (after [Command k_print circuit (str "tran v(a.x1)")]). eexists. split; [apply after_reached; repeat constructor|]. split; [vm_compute; reflexivity|].
  split; [reflexivity|]. split; [vm_compute; reflexivity|vm_compute; reflexivity].
Qed.

(* After an element or node that is stored is destroyed, the waves of those behind it in the list are found under wrong names. *)
Theorem C69_wave_after_delete_refuted : exists w w' v1 v2, reached true uSI doubling long w /\ w_live w 10 = true /\ v1 <> v2 /\
  find_wave true long (str "v(1)") w = Done (Some v1) /\ find_wave true long (str "v(out)") w = Done (Some v2) /\
  stp w (Delete 10) = Done w' /\ find_wave true long (str "v(out)") w' = Done (Some v1).
Proof.
  exists (after [Command k_store circuit (str "tran v(1) v(out)"); Run s_TRAN points]). eexists _, _, _.
  destruct (after_reached [Command k_store circuit (str "tran v(1) v(out)"); Run s_TRAN points]) as [R L]; [repeat constructor|].
  split; [exact R|]. split; [rewrite L; reflexivity|]. split; [|split; [vm_compute; reflexivity|split; [vm_compute; reflexivity|split; [vm_compute; reflexivity|vm_compute; reflexivity]]]].
  discriminate.
Qed.
(* An analysis whose setup fails leaves its mode with the waves of the one before: a wave outside the array is read. *)
Theorem C69_wave_in_bounds_refuted : exists w name, reached true uSI doubling long w /\ find_wave true long name w = Undef.
Proof.
  exists (after [Command k_store circuit (str "tran v(1) v(out)"); Command k_store circuit (str "ac v(1)"); Run s_AC points; Fail s_TRAN]), (str "v(out)").
  split; [apply after_reached; repeat constructor|vm_compute; reflexivity].
Qed.
(* Any command on any list makes the waves of the last analysis impossible to find. *)
Theorem C69_wave_after_command_refuted : exists w w' v, reached true uSI doubling long w /\ find_wave true long (str "v(out)") w = Done (Some v) /\
  stp w (Command k_print circuit (str "tran v(1)")) = Done w' /\ find_wave true long (str "v(out)") w' = Done None.
Proof.
  exists (after [Command k_store circuit (str "tran v(1) v(out)"); Run s_TRAN points]). eexists _, _.
  split; [apply after_reached; repeat constructor|]. split; [vm_compute; reflexivity|]. split; [vm_compute; reflexivity|vm_compute; reflexivity].
Qed.

Print Assumptions C69_no_dangling_probe.
Print Assumptions C69_steps_end.
Print Assumptions C69_delete.
Print Assumptions C69_other_kinds.
Print Assumptions C69_command.
Print Assumptions C69_names.
Print Assumptions C69_wave.
Print Assumptions C69_command_ends_refuted.
Print Assumptions C69_command_in_text_refuted.
Print Assumptions C69_each_object_once_refuted.
Print Assumptions C69_name_from_zero_refuted.
Print Assumptions C69_remove_several_refuted.
Print Assumptions C69_remove_backward_refuted.
Print Assumptions C69_wave_after_delete_refuted.
Print Assumptions C69_wave_in_bounds_refuted.
Print Assumptions C69_wave_after_command_refuted.
