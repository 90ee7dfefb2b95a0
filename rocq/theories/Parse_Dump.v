(* Proofs for C61: printing, and reading tokens back into a tree. *)
Require Import ZArith List Ascii String Bool Lia.
Require Import Verif.Loops Verif.Wmatch_Model Verif.CS_Model Verif.Parse_Model Verif.Parse_Spec.
Import ListNotations.

Section Trees.
Variable PP : tree -> Prop.
Hypothesis Hl : forall n, PP (Leaf n).
Hypothesis Hs : forall d, PP (Str d).
Hypothesis Hc : forall n args, Forall PP args -> PP (Call n args).
Hypothesis Ha : forall items, Forall PP items -> PP (Arr items).
Hypothesis Hu : forall o e, PP e -> PP (Un o e).
Hypothesis Hb : forall o a b, PP a -> PP b -> PP (Bin o a b).
Hypothesis Ht : forall c t f, PP c -> PP t -> PP f -> PP (Tern c t f).
Fixpoint tree_all (e : tree) : PP e :=
  let fix all (l : list tree) : Forall PP l := match l with [] => Forall_nil _ | x :: r => Forall_cons _ (tree_all x) (all r) end in
  match e with
  | Leaf n => Hl n | Str d => Hs d | Call n args => Hc n args (all args) | Arr items => Ha items (all items)
  | Un o e => Hu o e (tree_all e) | Bin o a b => Hb o a b (tree_all a) (tree_all b) | Tern c t f => Ht c t f (tree_all c) (tree_all t) (tree_all f)
  end.
End Trees.

(* ---- the tree from the tokens ---- *)
Inductive mark := MStop | MPar (l : list tree) | MTree (e : tree).
Fixpoint gather (acc : list tree) (st : list mark) : option (list tree * list mark) :=
  match st with MStop :: st' => Some (acc, st') | MTree e :: st' => gather (e :: acc) st' | _ => None end.
Fixpoint build_tok (t : ptok) (st : list mark) {struct t} : option (list mark) :=
  let fix build_list (l : list ptok) (st : list mark) {struct l} : option (list mark) :=
    match l with [] => Some st | x :: r => match build_tok x st with Some st => build_list r st | None => None end end in
  match t with
  | KStop _ => Some (MStop :: st)
  | KPar _ => match gather [] st with Some (l, st) => Some (MPar l :: st) | None => None end
  | KArr _ => match gather [] st with Some (l, st) => Some (MTree (Arr l) :: st) | None => None end
  | KSym n => match st with MPar l :: st' => Some (MTree (Call n l) :: st') | _ => Some (MTree (Leaf n) :: st) end
  | KStr d => Some (MTree (Str d) :: st)
  | KBin o => match st with MTree b :: MTree a :: st' => Some (MTree (Bin o a b) :: st') | _ => None end
  | KUn o => match st with MTree a :: st' => Some (MTree (Un o a) :: st') | _ => None end
  | KTern tp fp =>
      match st, build_list tp [], build_list fp [] with
      | MTree c :: st', Some [MTree t], Some [MTree f] => Some (MTree (Tern c t f) :: st')
      | _, _, _ => None
      end
  end.
Fixpoint build_list (l : list ptok) (st : list mark) : option (list mark) :=
  match l with [] => Some st | x :: r => match build_tok x st with Some st => build_list r st | None => None end end.
Lemma build_inner : forall l st, (fix build_list (l : list ptok) (st : list mark) {struct l} : option (list mark) :=
    match l with [] => Some st | x :: r => match build_tok x st with Some st => build_list r st | None => None end end) l st = build_list l st.
Proof. induction l as [|x r IH]; intros st; [reflexivity|]. cbn. destruct (build_tok x st); [apply IH|reflexivity]. Qed.
Lemma build_app : forall a b st, build_list (a ++ b) st = match build_list a st with Some st => build_list b st | None => None end.
Proof. induction a as [|x a IH]; intros b st; [reflexivity|]. cbn [app build_list]. destruct (build_tok x st); [apply IH|reflexivity]. Qed.
Definition no_par (st : list mark) : Prop := match st with MPar _ :: _ => False | _ => True end.
Definition builds (e : tree) : Prop := forall st, no_par st -> build_list (post e) st = Some (MTree e :: st).
Lemma builds_list : forall l st, Forall builds l -> no_par st -> build_list (flat_map post l) st = Some (map MTree (rev l) ++ st).
Proof.
  induction l as [|e l IH]; intros st F N; [reflexivity|]. inversion_clear F as [|? ? He Fl]. cbn [flat_map rev]. rewrite build_app, (He _ N), (IH (MTree e :: st) Fl I).
  now rewrite map_app, <- app_assoc.
Qed.
Lemma gather_map : forall l acc st, gather acc (map MTree l ++ MStop :: st) = Some (rev l ++ acc, st).
Proof. induction l as [|e l IH]; intros acc st; [reflexivity|]. cbn. rewrite IH, <- app_assoc. reflexivity. Qed.
Lemma post_builds : forall e, builds e.
Proof.
  apply tree_all.
  - intros n [|[|l|e] st] N; try reflexivity. elim N.
  - intros d st N. reflexivity.
  - intros n args F st N. cbn [post build_list build_tok]. rewrite build_app, (builds_list _ (MStop :: st) F I). cbn [build_list build_tok].
    rewrite gather_map, rev_involutive, app_nil_r. reflexivity.
  - intros items F st N. cbn [post build_list build_tok]. rewrite build_app, (builds_list _ (MStop :: st) F I). cbn [build_list build_tok].
    rewrite gather_map, rev_involutive, app_nil_r. reflexivity.
  - intros o e He st N. cbn [post]. rewrite build_app, (He _ N). reflexivity.
  - intros o a b HA HB st N. cbn [post]. rewrite build_app, (HA _ N), build_app, (HB (MTree a :: st) I). reflexivity.
  - intros c t f HC HT HF st N. cbn [post]. rewrite build_app, (HC _ N). cbn [build_list build_tok]. rewrite build_inner, (HT [] I). cbv iota. rewrite build_inner, (HF [] I). reflexivity.
Qed.
Lemma post_inj : forall e e', post e = post e' -> e = e'.
Proof. intros e e' H. pose proof (post_builds e [] I) as A. rewrite H, (post_builds e' [] I) in A. now injection A. Qed.

(* ---- printing ---- *)
Fixpoint join (l : list (list ascii)) : list ascii :=
  match l with [] => [] | [x] => x | x :: r => x ++ str ", " ++ join r end.
Fixpoint show (e : tree) : list ascii :=
  match e with
  | Leaf n => n
  | Str d => QUOTE :: d ++ [QUOTE]
  | Call n args => n ++ str "(" ++ join (map show args) ++ str ")"
  | Arr items => str "'{" ++ join (map show items) ++ str "}"
  | Un o e => str "(" ++ o ++ str " " ++ show e ++ str ")"
  | Bin o a b => str "(" ++ show a ++ str " " ++ o ++ str " " ++ show b ++ str ")"
  | Tern c t f => str "(" ++ show c ++ str ")? (" ++ show t ++ str "):(" ++ show f ++ str ")"
  end.
Lemma dump_inner : forall l st, (fix dump_list (l : list ptok) (st : list entry) {struct l} : pr (list entry) :=
    match l with [] => Good st | x :: r => do st <- dump_tok x st; dump_list r st end) l st = dump_list l st.
Proof. induction l as [|x r IH]; intros st; [reflexivity|]. cbn. destruct (dump_tok x st); cbn; [apply IH|reflexivity|reflexivity]. Qed.
Lemma dump_app : forall a b st, dump_list (a ++ b) st = do st <- dump_list a st; dump_list b st.
Proof. induction a as [|x a IH]; intros b st; [reflexivity|]. cbn [app dump_list]. destruct (dump_tok x st); cbn; [apply IH|reflexivity|reflexivity]. Qed.
Definition no_ipar (st : list entry) : Prop := match st with IPar _ :: _ => False | _ => True end.
Definition prints (e : tree) : Prop := forall st, no_ipar st -> dump_list (post e) st = Good (IText (show e) :: st).
Lemma prints_list : forall l st, Forall prints l -> no_ipar st -> dump_list (flat_map post l) st = Good (map IText (rev (map show l)) ++ st).
Proof.
  induction l as [|e l IH]; intros st F N; [reflexivity|]. inversion_clear F as [|? ? He Fl]. cbn [flat_map rev map]. rewrite dump_app, (He _ N). cbn [pbind].
  rewrite (IH (IText (show e) :: st) Fl I). now rewrite map_app, <- app_assoc.
Qed.
Lemma join_snoc : forall l x, join (l ++ [x]) = match l with [] => x | _ => join l ++ str ", " ++ x end.
Proof.
  induction l as [|y l IH]; intros x; [reflexivity|]. change ((y :: l) ++ [x]) with (y :: (l ++ [x])). cbn [join]. 
  destruct (l ++ [x]) as [|z q] eqn:E; [destruct l; discriminate E|]. rewrite <- E, IH. destruct l as [|w l]; [reflexivity|].
  now rewrite <- !app_assoc.
Qed.
(* [rest] has been collected already *)
Lemma collect_map : forall l n rest cl st, collect (match rest with [] => false | _ => true end) (join rest ++ cl) (map IText (rev l) ++ IStop n :: st) =
  Good (n ++ join (l ++ rest) ++ cl, st).
Proof.
  intros l n rest cl. revert rest. induction l as [|x l IH] using rev_ind; intros rest st; [reflexivity|].
  rewrite rev_app_distr. cbn [rev app map collect].
  replace (x ++ (if match rest with [] => false | _ => true end then str ", " ++ join rest ++ cl else join rest ++ cl)) with (join (x :: rest) ++ cl).
  2:{ destruct rest; [reflexivity|]. change (join (x :: l0 :: rest)) with (x ++ str ", " ++ join (l0 :: rest)). now rewrite <- !app_assoc. }
  rewrite (IH (x :: rest)). now rewrite <- app_assoc.
Qed.
Lemma post_prints : forall e, prints e.
Proof.
  apply tree_all.
  - intros n [|[x|x|x] st] N; try reflexivity. elim N.
  - intros d [|[x|x|x] st] N; try reflexivity. elim N.
  - intros n args F st N. cbn [post dump_list dump_tok pbind]. rewrite dump_app, (prints_list _ (IStop (str "(") :: st) F I). cbn [dump_list dump_tok pbind].
    pose proof (collect_map (map show args) (str "(") [] (str ")") st) as C. cbn [join] in C. change ([] ++ str ")") with (str ")") in C. rewrite C. cbn [pbind].
    now rewrite app_nil_r.
  - intros items F st N. cbn [post dump_list dump_tok pbind]. rewrite dump_app, (prints_list _ (IStop (str "'{") :: st) F I). cbn [dump_list dump_tok pbind].
    pose proof (collect_map (map show items) (str "'{") [] (str "}") st) as C. cbn [join] in C. change ([] ++ str "}") with (str "}") in C. rewrite C. cbn [pbind].
    now rewrite app_nil_r.
  - intros o e He st N. cbn [post]. rewrite dump_app, (He _ N). reflexivity.
  - intros o a b HA HB st N. cbn [post]. rewrite dump_app, (HA _ N). cbn [pbind]. rewrite dump_app, (HB (IText (show a) :: st) I). reflexivity.
  - intros c t f HC HT HF st N. cbn [post]. rewrite dump_app, (HC _ N). cbn [pbind dump_list dump_tok]. rewrite dump_inner, (HT [] I). cbn [pbind]. rewrite dump_inner, (HF [] I). reflexivity.
Qed.

(* ---- blanks may follow ---- *)
Lemma blanks_app : forall lax a b, blanks lax a -> blanks lax b -> blanks lax (a ++ b).
Proof. intros lax a b A B. now apply Forall_app. Qed.
Lemma writes_blank : forall lax k t e, writes lax k t e -> forall b, blanks lax b -> writes lax k (t ++ b) e.
Proof.
  intros lax k t e W. induction W using writes_mut with (P0 := fun _ _ => True); try exact I; intros z Z.
  - rewrite <- app_assoc. apply w_leaf; [assumption|now apply blanks_app].
  - cbn [app]. rewrite <- app_assoc. apply w_angle; [assumption|assumption|]. destruct H1 as [B|(L & b1 & b2 & -> & B1 & B2)]; [left; now apply blanks_app|].
    right. split; [exact L|]. exists b1, (b2 ++ z). rewrite <- app_assoc. split; [reflexivity|]. split; [exact B1|now apply blanks_app].
  - cbn [app]. rewrite <- app_assoc. cbn [app]. apply w_str; [assumption|now apply blanks_app].
  - repeat (rewrite <- app_assoc; cbn [app]). apply w_call; try assumption. now apply blanks_app.
  - repeat (rewrite <- ?app_assoc; cbn [app]). apply w_arr; try assumption. now apply blanks_app.
  - repeat (rewrite <- ?app_assoc; cbn [app]). apply w_paren; try assumption. now apply blanks_app.
  - rewrite <- !app_assoc. apply w_sign; try assumption. now apply IHW.
  - apply w_up. now apply IHW.
  - rewrite <- !app_assoc. apply w_bin; try assumption. now apply IHW2.
  - repeat (rewrite <- ?app_assoc; cbn [app]). apply w_tern; try assumption. now apply IHW3.
  - rewrite <- app_assoc. apply w_lead; try assumption. now apply IHW.
Qed.
Lemma writes_down : forall lax k j t e, (j <= k)%nat -> writes lax k t e -> writes lax j t e.
Proof. intros lax k j t e L W. induction L as [|k L IH]; [exact W|]. apply IH. now apply w_up. Qed.

(* trees whose printed form can be read back *)
Definition not_tern (e : tree) : Prop := match e with Tern _ _ _ => False | _ => True end.
Fixpoint proper (e : tree) : Prop :=
  match e with
  | Leaf n => word false n
  | Str d => quotable d
  | Call n args => word false n /\ (fix all (l : list tree) := match l with [] => True | x :: r => proper x /\ all r end) args
  | Arr items => (fix all (l : list tree) := match l with [] => True | x :: r => proper x /\ all r end) items
  | Un o e => In o signs /\ not_tern e /\ proper e
  | Bin o a b => (exists k, In o (ops k)) /\ (not_tern a /\ not_tern b) /\ proper a /\ proper b
  | Tern c t f => proper c /\ proper t /\ proper f
  end.
Lemma sp : blanks false (str " ").
Proof. constructor; [|constructor]. split; [discriminate|]. split; [reflexivity|right; reflexivity]. Qed.
Definition shown (e : tree) : Prop := proper e -> (not_tern e -> writes false 7 (show e) e) /\ writes false 0 (show e) e.
Lemma shown_list : forall l, Forall shown l -> (fix all (l : list tree) := match l with [] => True | x :: r => proper x /\ all r end) l -> lists false (join (map show l)) l.
Proof.
  induction l as [|e l IH]; intros F A; [constructor|]. inversion_clear F as [|? ? He Fl]. destruct A as [Pe A]. destruct (He Pe) as [_ W].
  destruct l as [|e2 l]; [now apply l_one|]. change (join (map show (e :: e2 :: l))) with (show e ++ ","%char :: str " " ++ join (map show (e2 :: l))).
  apply l_cons; [exact W|apply sp|discriminate|now apply IH].
Qed.
Lemma show_writes : forall e, shown e.
Proof.
  assert (Seven : forall e, writes false 7 (show e) e -> (not_tern e -> writes false 7 (show e) e) /\ writes false 0 (show e) e).
  { intros e W. split; [auto|]. apply writes_down with 7%nat; [lia|exact W]. }
  assert (Nil : blanks false []) by constructor.
  apply tree_all; unfold shown.
  - intros n W. apply Seven. cbn. rewrite <- (app_nil_r n) at 1. now apply w_leaf.
  - intros d Q. apply Seven. cbn. now apply w_str.
  - intros n args F [W A]. apply Seven. cbn [show]. apply (w_call false n [] [] []); try assumption. now apply shown_list.
  - intros items F A. apply Seven. cbn [show]. apply (w_arr false [] [] []); try assumption. now apply shown_list.
  - intros o e He (I & N & Pe). apply Seven. cbn [show]. destruct (He Pe) as [W _].
    replace (str "(" ++ o ++ str " " ++ show e ++ str ")") with ("("%char :: [] ++ (o ++ str " " ++ show e) ++ ")"%char :: []) by (cbn; now rewrite <- !app_assoc).
    apply w_paren; [assumption|assumption|]. apply writes_down with 6%nat; [lia|]. apply w_sign; [exact I|left; apply sp|now apply W].
  - intros o a b HA HB ((k & I) & (Na & Nb) & Pa & Pb). apply Seven. cbn [show]. destruct (HA Pa) as [Wa _]. destruct (HB Pb) as [Wb _].
    replace (str "(" ++ show a ++ str " " ++ o ++ str " " ++ show b ++ str ")") with ("("%char :: [] ++ ((show a ++ str " ") ++ o ++ str " " ++ show b) ++ ")"%char :: [])
      by (cbn; now rewrite <- !app_assoc).
    assert (Hk : (k <= 5)%nat) by (destruct k as [|[|[|[|[|[|k]]]]]]; cbn in I; try (now destruct I); lia).
    apply w_paren; [assumption|assumption|]. apply writes_down with k; [lia|]. apply w_bin; [now left|left; apply sp| |].
    + apply writes_down with 7%nat; [lia|]. apply writes_blank; [now apply Wa|apply sp].
    + apply writes_down with 7%nat; [lia|now apply Wb].
  - intros c t f HC HT HF (Pc & Pt & Pf). split; [intros []|]. cbn [show]. destruct (HC Pc) as [_ Wc]. destruct (HT Pt) as [_ Wt]. destruct (HF Pf) as [_ Wf].
    assert (Par : forall x e, writes false 0 x e -> writes false 7 ("("%char :: [] ++ x ++ ")"%char :: []) e) by (intros; now apply w_paren).
    replace (str "(" ++ show c ++ str ")? (" ++ show t ++ str "):(" ++ show f ++ str ")") with
      (("("%char :: [] ++ show c ++ ")"%char :: []) ++ "?"%char :: str " " ++ ("("%char :: [] ++ show t ++ ")"%char :: []) ++ ":"%char :: [] ++ ("("%char :: [] ++ show f ++ ")"%char :: []))
      by (cbn; repeat (rewrite <- app_assoc; cbn); reflexivity).
    apply w_tern; [left; apply sp|assumption| | |]; (eapply writes_down; [|apply Par; eassumption]; lia).
Qed.
(* what is written is made of proper parts *)
Fixpoint tern_under (e : tree) : Prop :=
  match e with
  | Leaf _ | Str _ => False
  | Call _ l | Arr l => (fix any (l : list tree) := match l with [] => False | x :: r => tern_under x \/ any r end) l
  | Un _ e => ~ not_tern e \/ tern_under e
  | Bin _ a b => ~ not_tern a \/ ~ not_tern b \/ tern_under a \/ tern_under b
  | Tern c t f => tern_under c \/ tern_under t \/ tern_under f
  end.
Lemma not_tern_dec : forall e, not_tern e \/ ~ not_tern e.
Proof. intros []; cbn; auto. Qed.
Lemma written_proper : (forall k t e, writes false k t e -> ~ tern_under e -> proper e) /\
  (forall t es, lists false t es -> ~ (fix any (l : list tree) := match l with [] => False | x :: r => tern_under x \/ any r end) es ->
     (fix all (l : list tree) := match l with [] => True | x :: r => proper x /\ all r end) es).
Proof.
  apply writes_lists; try discriminate; cbn [proper tern_under]; try tauto.
  - intros o b t e I _ W H N. split; [exact I|]. split; [destruct (not_tern_dec e); tauto|apply H; tauto].
  - intros k o b t1 t2 e1 e2 [I|(D & _)] G W1 H1 W2 H2 N; [|discriminate D]. split; [now exists k|].
    split; [split; [destruct (not_tern_dec e1); tauto|destruct (not_tern_dec e2); tauto]|]. split; [apply H1|apply H2]; tauto.
Qed.
