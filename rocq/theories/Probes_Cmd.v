(* Proofs about Probes_Model: whole commands. *)
Require Import ZArith QArith List Ascii String Bool Lia.
Require Import Verif.Loops Verif.Wmatch_Model Verif.CS_Model Verif.CS_Proofs Verif.CS_Ops Verif.CS_Float Verif.CS_Word Verif.Probes_Model Verif.Probes_Proofs Verif.Probes_Text.
Import ListNotations.
Local Open Scope Z_scope.

(* ---- any text ---- *)
Lemma sim_word_any : forall ci line l r s, Forall (fun km => closed (str (fst km) ++ str " ")) l -> vw line r s ->
  exists m s' r', sim_word ci l s = Done (m, s') /\ vw line r' s' /\ suffix r' r.
Proof.
  intros ci line l. induction l as [|[key m] l IH]; intros r s H V; cbn [sim_word].
  - exists s_NONE, s, r. split; [reflexivity|]. split; [exact V|apply suffix_refl].
  - inversion_clear H as [|? ? Hk Hl]. cbn [fst] in Hk. destruct (umatch_safe ci line r s _ Hk V) as (s1 & r1 & E1 & V1 & S1 & F1). rewrite E1. cbn [txt obind].
    destruct (ok s1) eqn:O; [exists m, s1, r1; auto|]. destruct (IH r1 s1 Hl V1) as (m' & s' & r' & E' & V' & S'). exists m', s', r'.
    split; [exact E'|]. split; [exact V'|]. now apply suffix_trans with r1.
Qed.
Lemma closed_brace : forall a b c, ~ In NUL (a ++ b ++ c) -> ~ In "{"%char a -> ~ In "{"%char b -> ~ In "{"%char c -> ~ In "\"%char b ->
  closed (a ++ "{"%char :: b ++ "}"%char :: c).
Proof.
  intros a b c N A B C E. split.
  - intros I. apply in_app_or in I. destruct I as [I|[I|I]]; [apply N, in_or_app; now left|discriminate I|].
    apply in_app_or in I. destruct I as [I|[I|I]]; [|discriminate I|]; apply N, in_or_app; right; apply in_or_app; auto.
  - intros x y Eq. assert (K : x = a /\ y = b ++ "}"%char :: c).
    { revert x Eq A. induction a as [|d a IH]; intros [|e x] Eq A; cbn [app] in Eq.
      - injection Eq as <-. auto.
      - injection Eq as <- Eq. exfalso. assert (In "{"%char (b ++ "}"%char :: c)) by (rewrite Eq; apply in_or_app; right; now left).
        apply in_app_or in H. destruct H as [H|[H|H]]; [auto|discriminate H|auto].
      - injection Eq as -> _. elim A. now left.
      - injection Eq as <- Eq. destruct (IH ltac:(intros I; apply N; now right) x Eq) as [-> ->]; [intros I; apply A; now right|auto]. }
    destruct K as [_ ->]. exists b, c. auto.
Qed.
Lemma sim_closed : Forall (fun km : string * mode => closed (str (fst km) ++ str " ")) sim_words.
Proof.
  apply Forall_cons; [apply (closed_brace (str "tr") (str "ansient") (str " ")); cbn; intuition discriminate|].
  do 3 (apply Forall_cons; [apply no_brace; cbn; intuition discriminate|]).
  apply Forall_cons; [apply (closed_brace (str "fo") (str "urier") (str " ")); cbn; intuition discriminate|constructor].
Qed.

Definition all_live (live : Z -> bool) (ls : lists) : Prop := forall k m, lives live (ls k m).
Lemma clear_all_ok : forall k ms ls c, agree c ls -> exists ls' c', clear_all k ms (ls, c) = Done (ls', c') /\ agree c' ls' /\
  forall k' m', ls' k' m' = if kind_eqb k' k && existsb (mode_eqb m') ms then [] else ls k' m'.
Proof.
  intros k ms. induction ms as [|m ms IH]; intros ls c A; cbn [clear_all].
  - exists ls, c. split; [reflexivity|]. split; [exact A|]. intros k' m'. cbn [existsb]. now rewrite andb_false_r.
  - cbn [fst snd]. destruct (clear_ok (ls k m) _ c (others_pos k m ls) (agree_bal _ _ k m A)) as (c1 & E1 & B1). rewrite E1. cbn [obind].
    destruct (IH _ c1 (bal_agree _ _ _ _ _ B1)) as (ls' & c' & E' & A' & H'). exists ls', c'. split; [exact E'|]. split; [exact A'|].
    intros k' m'. rewrite H'. cbn [existsb]. unfold set_list. destruct (kind_eqb k' k), (mode_eqb m' m), (existsb (mode_eqb m') ms); reflexivity.
Qed.

Section C.
Variables (ci : bool) (u : units) (grow : list probe -> bool) (long_label : Z -> list ascii) (live : Z -> bool) (sc : scope).
Hypothesis Hs : scope_lives live sc.

(* what every command keeps *)
Definition kept (k : kind) (ls : lists) (c' : counts) (ls' : lists) : Prop :=
  agree c' ls' /\ all_live live ls' /\ forall k' m, k' <> k -> ls' k' m = ls k' m.
Lemma kept_set : forall k ls m l c, all_live live ls -> bal c l (others k m ls) -> lives live l -> kept k ls c (set_list ls k m l).
Proof.
  intros k ls m l c A B L. split; [now apply bal_agree|]. split.
  - intros k' m'. unfold set_list. destruct (kind_eqb k' k && mode_eqb m' m); [exact L|apply A].
  - intros k' m' N. apply set_list_other. congruence.
Qed.

Lemma do_probe_ok : forall line n k ls c, agree c ls -> all_live live ls ->
  ends ((n <= List.length line)%nat \/ stuck line) (fun x => match x with (ls', c', _) => kept k ls c' ls' end)
    (do_probe ci u grow long_label n k sc (ls, c) (cs_string line)).
Proof.
  intros line n k ls c A L. unfold do_probe. pose proof (vw_start line) as V0.
  destruct (sign_ok line aNEW line _ V0) as (a & s1 & r1 & E1 & V1 & S1 & _). rewrite E1. cbn [obind].
  destruct (sim_word_any ci line sim_words r1 s1 sim_closed V1) as (m & s2 & r2 & E2 & V2 & S2). rewrite E2. cbn [obind].
  destruct (more_vw _ _ _ V2) as (s3 & E3 & V3 & _). rewrite E3. cbn [txt obind]. set (b := negb (Ascii.eqb (head (dropbl r2)) NUL)).
  assert (Same : kept k ls c ls) by (split; [exact A|split; [exact L|reflexivity]]).
  assert (Hc : closed (str "clear ")) by (apply no_brace; cbn; intuition discriminate).
  assert (SS : suffix (dropbl r2) line). { eapply suffix_trans; [apply suffix_drop|]. now apply suffix_trans with r1. }
  assert (Main : m <> s_NONE -> ends ((n <= List.length line)%nat \/ stuck line) (fun x => match x with (ls', c', _) => kept k ls c' ls' end)
    (if negb b then Done (ls, c, false)
     else do s <- txt (umatch ci (str "clear ") s3);
         if ok s then do (l, c) <- clear (ls k m, c); Done (set_list ls k m l, c, false)
         else
           do (a, s) <- sign a s;
           do (a, l, c) <- match a with
                           | aNEW => do (l, c) <- clear (ls k m, c); Done (aADD, l, c)
                           | _ => Done (a, ls k m, c)
                           end;
           do (l, c, s) <- edit ci u grow long_label n sc a (l, c) s;
           Done (set_list ls k m l, c, false))).
  { intros _. destruct (negb b); [exact Same|].
    destruct (umatch_safe ci line _ s3 _ Hc V3) as (s4 & r4 & E4 & V4 & S4 & F4). rewrite E4. cbn [txt obind].
    destruct (clear_ok (ls k m) _ c (others_pos k m ls) (agree_bal _ _ k m A)) as (cc & Ec & Bc).
    destruct (ok s4) eqn:O4.
    - rewrite Ec. cbn [obind ends]. apply kept_set; [exact L|exact Bc|intros p o []].
    - destruct (sign_ok line a r4 s4 V4) as (a' & s5 & r5 & E5 & V5 & S5 & _). rewrite E5. cbn [obind].
      assert (St : exists a2 l2 c2, (match a' with aNEW => do (l, c) <- clear (ls k m, c); Done (aADD, l, c) | _ => Done (a', ls k m, c) end) = Done (a2, l2, c2) /\
         good live (others k m ls) l2 c2).
      { destruct a'.
        - eexists _, _, _. split; [reflexivity|]. split; [now apply agree_bal|apply L].
        - eexists _, _, _. split; [reflexivity|]. split; [now apply agree_bal|apply L].
        - rewrite Ec. cbn [obind]. eexists _, _, _. split; [reflexivity|]. split; [exact Bc|intros p o []]. }
      destruct St as (a2 & l2 & c2 & Ea & G2). rewrite Ea. cbn [obind].
      pose proof (edit_ok ci u grow long_label live (others k m ls) sc (others_pos k m ls) Hs line n a2 l2 c2 r5 s5 G2 V5) as K.
      assert (S5l : suffix r5 line) by (eapply suffix_trans; [exact S5|]; eapply suffix_trans; [exact S4|exact SS]).
      apply ends_bind with (P := fun x => match x with (l', c', s') => good live (others k m ls) l' c' end).
      { eapply ends_imp; [exact K| |auto]. pose proof (suffix_len _ _ S5l). intros [X|(d & I & J)]; [left; lia|right]. exists d. split; [exact I|]. now apply in_suffix with r5. }
      intros [[l' c'] s'] [B' L']. cbn [ends]. now apply kept_set. }
  destruct m; try (apply Main; discriminate).
  destruct (negb b); [exact Same|].
  destruct (umatch_safe ci line _ s3 _ Hc V3) as (s4 & r4 & E4 & V4 & S4 & F4). rewrite E4. cbn [txt obind].
  destruct (ok s4); [|exact Same].
  destruct (clear_all_ok k modes ls c A) as (ls' & c' & E' & A' & H'). cbn [fst snd]. rewrite E'. cbn [obind ends].
  split; [exact A'|]. split.
  - intros k' m'. rewrite H'. destruct (kind_eqb k' k && existsb (mode_eqb m') modes); [intros p o []|apply L].
  - intros k' m' N. rewrite H'. destruct (kind_eqb k' k) eqn:E; [apply kind_eqb_eq in E; contradiction|reflexivity].
Qed.
End C.

(* ---- waves ---- *)
Lemma push_at_app : forall a w b d, push_at (a ++ w :: b) (List.length a) d = Done (a ++ (w ++ [d]) :: b).
Proof. induction a as [|x a IH]; intros w b d; cbn [app List.length push_at]; [reflexivity|]. now rewrite IH. Qed.
Lemma store_loop_ok : forall x v l a (f : probe -> wave),
  store_loop x v (List.length a) l (a ++ map f l) = Done (a ++ map (fun p => f p ++ [(x, v p)]) l).
Proof.
  intros x v l. induction l as [|p l IH]; intros a f; cbn [store_loop map]; [reflexivity|].
  rewrite push_at_app. cbn [obind]. replace (S (List.length a)) with (List.length (a ++ [f p ++ [(x, v p)]])) by (rewrite app_length; cbn; lia).
  replace (a ++ (f p ++ [(x, v p)]) :: map f l) with ((a ++ [f p ++ [(x, v p)]]) ++ map f l) by (rewrite <- app_assoc; reflexivity).
  rewrite IH, <- app_assoc. reflexivity.
Qed.
Definition recorded (pts : list (Q * (probe -> Q))) (p : probe) : wave := map (fun pt : Q * (probe -> Q) => (fst pt, snd pt p)) pts.
Lemma outputs_ok : forall pts lv c ls m f,
  outputs pts (World lv c ls m (Some (map f (ls k_store m)))) = Done (World lv c ls m (Some (map (fun p => f p ++ recorded pts p) (ls k_store m)))).
Proof.
  intros pts lv c ls m. induction pts as [|[x v] pts IH]; intros f; cbn [outputs].
  - f_equal. f_equal. f_equal. apply map_ext. intros p. cbn. now rewrite app_nil_r.
  - unfold store_results. cbn [w_waves w_lists w_mode w_live w_counts]. pose proof (store_loop_ok x v (ls k_store m) [] f) as E. cbn [app List.length] in E. rewrite E. cbn [obind].
    rewrite IH. f_equal. f_equal. f_equal. apply map_ext. intros p. rewrite <- app_assoc. reflexivity.
Qed.
Lemma run_ok : forall m pts w, outputs pts (head_waves (set_mode m w)) =
  Done (World (w_live w) (w_counts w) (w_lists w) m (Some (map (recorded pts) (w_lists w k_store m)))).
Proof. intros m pts w. unfold head_waves, set_mode. cbn [w_live w_counts w_lists w_mode]. rewrite (outputs_ok pts _ _ _ _ (fun _ => [])). reflexivity. Qed.
Lemma find_wave_loop_ok : forall ci ll name l ii,
  match find_wave_loop ci ll name ii l with
  | Some j => exists a p b, l = a ++ p :: b /\ j = (ii + List.length a)%nat /\ wmatch ci (label ll p) name = true /\ (forall q, In q a -> wmatch ci (label ll q) name = false)
  | None => forall q, In q l -> wmatch ci (label ll q) name = false
  end.
Proof.
  intros ci ll name l. induction l as [|p l IH]; intros ii; cbn [find_wave_loop]; [intros q []|].
  destruct (wmatch ci (label ll p) name) eqn:E.
  - exists [], p, l. split; [reflexivity|]. split; [cbn; lia|]. split; [exact E|intros q []].
  - specialize (IH (S ii)). destruct (find_wave_loop ci ll name (S ii) l) as [j|].
    + destruct IH as (a & q & b & -> & -> & Hq & Ha). exists (p :: a), q, b. split; [reflexivity|]. split; [cbn; lia|]. split; [exact Hq|]. intros x [<-|I]; [exact E|now apply Ha].
    + intros q [<-|I]; [exact E|now apply IH].
Qed.

(* ---- where a name with dots leads ---- *)
Fixpoint join (ps : list (list ascii)) : list ascii :=
  match ps with [] => [] | [a] => a | a :: l => a ++ "."%char :: join l end.
Definition dotless (a : list ascii) : Prop := ~ In "."%char a.
Lemma cut_first_none : forall d, dotless d -> cut_first d = None.
Proof.
  induction d as [|c d IH]; intros N; [reflexivity|]. cbn [cut_first]. destruct (Ascii.eqb_spec c ".") as [->|_]; [elim N; now left|].
  rewrite IH; [reflexivity|]. intros I. apply N. now right.
Qed.
Lemma cut_first_dot : forall a b, dotless a -> cut_first (a ++ "."%char :: b) = Some (a, b).
Proof.
  induction a as [|c a IH]; intros b N; cbn [app cut_first]; [reflexivity|]. destruct (Ascii.eqb_spec c ".") as [->|_]; [elim N; now left|].
  rewrite IH; [reflexivity|]. intros I. apply N. now right.
Qed.
Lemma cut_last_none : forall d, dotless d -> cut_last d = None.
Proof.
  induction d as [|c d IH]; intros N; [reflexivity|]. cbn [cut_last]. rewrite IH by (intros I; apply N; now right).
  destruct (Ascii.eqb_spec c ".") as [->|_]; [elim N; now left|reflexivity].
Qed.
Lemma cut_last_dot : forall a b, dotless b -> cut_last (a ++ "."%char :: b) = Some (a, b).
Proof.
  induction a as [|c a IH]; intros b N; cbn [app cut_last]; [now rewrite cut_last_none|]. now rewrite IH.
Qed.
Lemma join_snoc : forall ps a, ps <> [] -> join (ps ++ [a]) = join ps ++ "."%char :: a.
Proof.
  induction ps as [|x ps IH]; intros a N; [congruence|]. destruct ps as [|y ps]; [reflexivity|].
  change ((x :: y :: ps) ++ [a]) with (x :: (y :: ps) ++ [a]). change (join (x :: (y :: ps) ++ [a])) with (x ++ "."%char :: join ((y :: ps) ++ [a])).
  rewrite IH by discriminate. change (join (x :: y :: ps)) with (x ++ "."%char :: join (y :: ps)). rewrite <- app_assoc. reflexivity.
Qed.
Lemma split_dots : forall d, exists ps, ps <> [] /\ Forall dotless ps /\ d = join ps /\ (List.length ps <= S (List.length d))%nat.
Proof.
  induction d as [|c d (ps & N & F & E & L)].
  - exists [[]]. split; [discriminate|]. split; [repeat constructor; intros []|]. split; [reflexivity|cbn; lia].
  - destruct (Ascii.eqb_spec c ".") as [->|Nc].
    + exists ([] :: ps). split; [discriminate|]. split; [constructor; [intros []|exact F]|]. split; [|cbn [List.length]; lia].
      destruct ps as [|p ps]; [congruence|]. cbn [join app]. now rewrite E.
    + destruct ps as [|p ps]; [congruence|]. exists ((c :: p) :: ps). split; [discriminate|]. inversion_clear F as [|? ? Fp Fs].
      split; [constructor; [intros [X|X]; [congruence|now apply Fp]|exact Fs]|]. split; [|cbn [List.length] in *; lia]. rewrite E. destruct ps; reflexivity.
Qed.

(* taking the parts of two lists in any order that keeps the order of each *)
Inductive shuffle {A} : list A -> list A -> list A -> Prop :=
| sh_nil : shuffle [] [] []
| sh_l : forall x a b c, shuffle a b c -> shuffle (x :: a) b (x :: c)
| sh_r : forall x a b c, shuffle a b c -> shuffle a (x :: b) (x :: c).
(* going down through containers that match the patterns, the outermost first *)
Inductive down (ci : bool) : scope -> list (list ascii) -> scope -> Prop :=
| d_here : forall sc, down ci sc [] sc
| d_into : forall sc l o inner pat ps sc', In (Card l o true (Some inner)) (cards sc) -> wmatch ci l pat = true ->
    down ci inner ps sc' -> down ci sc (pat :: ps) sc'.

Definition leads (ci : bool) (ps : list (list ascii)) (sc : scope) (o : Z) : Prop :=
  exists f d b path inner, ps = f ++ d :: b /\ shuffle f (rev b) path /\ down ci sc path inner /\ In o (add_here ci d inner).
Lemma leads_one : forall ci d sc o, leads ci [d] sc o <-> In o (add_here ci d sc).
Proof.
  intros ci d sc o. split.
  - intros (f & d' & b & path & inner & E & Sh & Dn & I). destruct f as [|x f]; [|destruct f; discriminate E]. injection E as <- <-. cbn [rev] in Sh.
    inversion Sh; subst. inversion Dn; subst. exact I.
  - intros I. exists [], d, [], [], sc. repeat split; try constructor. exact I.
Qed.
Lemma leads_front : forall ci a l inner x sc ps o, In (Card l x true (Some inner)) (cards sc) -> wmatch ci l a = true -> leads ci ps inner o -> leads ci (a :: ps) sc o.
Proof.
  intros ci a l inner x sc ps o I W (f & d & b & path & fin & -> & Sh & Dn & H). exists (a :: f), d, b, (a :: path), fin.
  split; [reflexivity|]. split; [now constructor|]. split; [|exact H]. now apply d_into with l x inner.
Qed.
Lemma leads_back : forall ci a l inner x sc ps o, In (Card l x true (Some inner)) (cards sc) -> wmatch ci l a = true -> leads ci ps inner o -> leads ci (ps ++ [a]) sc o.
Proof.
  intros ci a l inner x sc ps o I W (f & d & b & path & fin & -> & Sh & Dn & H). exists f, d, (b ++ [a]), (a :: path), fin.
  split; [now rewrite <- app_assoc|]. rewrite rev_app_distr. cbn [rev app]. split; [now constructor|]. split; [|exact H]. now apply d_into with l x inner.
Qed.
Lemma leads_step : forall ci ps sc o, (2 <= List.length ps)%nat -> leads ci ps sc o ->
  exists a ps', (ps = a :: ps' \/ ps = ps' ++ [a]) /\ exists l x inner, In (Card l x true (Some inner)) (cards sc) /\ wmatch ci l a = true /\ leads ci ps' inner o.
Proof.
  intros ci ps sc o L (f & d & b & path & fin & -> & Sh & Dn & H). rewrite app_length in L. cbn [List.length] in L.
  inversion Sh as [Ef Eb Ep|a f' rb c Sh' Ef Erb Ep|a f' rb c Sh' Ef Erb Ep]; subst.
  - exfalso. assert (b = []) by (destruct b; [reflexivity|]; cbn [rev] in Eb; destruct (rev b); discriminate Eb). subst b. cbn in L. lia.
  - inversion Dn as [|? l x inner ? ? ? I W Dn']; subst. exists a, (f' ++ d :: b). split; [now left|]. exists l, x, inner. split; [exact I|]. split; [exact W|].
    exists f', d, b, c, fin. auto.
  - inversion Dn as [|? l x inner ? ? ? I W Dn']; subst. exists a, (f ++ d :: rev rb). split.
    + right. rewrite <- app_assoc. cbn [app]. f_equal. f_equal. rewrite <- (rev_involutive b). rewrite <- Erb. cbn [rev]. reflexivity.
    + exists l, x, inner. split; [exact I|]. split; [exact W|]. exists f, d, (rev rb), c, fin. rewrite rev_involutive. auto.
Qed.
Lemma add_branches_n_ok : forall ci n ps sc o, ps <> [] -> Forall dotless ps -> (List.length ps <= n)%nat ->
  In o (add_branches_n ci n (join ps) sc) <-> leads ci ps sc o.
Proof.
  intros ci n. induction n as [|n IH]; intros ps sc o N F L; [destruct ps; [congruence|cbn in L; lia]|]. cbn [add_branches_n].
  destruct ps as [|a [|b ps]]; [congruence| |].
  - cbn [join]. rewrite cut_first_none by (now inversion_clear F). symmetry. apply leads_one.
  - change (join (a :: b :: ps)) with (a ++ "."%char :: join (b :: ps)) at 1. rewrite cut_first_dot by (now inversion_clear F).
    destruct (@exists_last _ (a :: b :: ps) ltac:(discriminate)) as (qs & z & Eq). rewrite Eq.
    assert (Nq : qs <> []) by (intros ->; discriminate Eq). rewrite join_snoc by exact Nq.
    assert (Fq : Forall dotless qs /\ dotless z). { rewrite Eq in F. apply Forall_app in F. destruct F as [F1 F2]. split; [exact F1|now inversion_clear F2]. }
    assert (Lq : List.length (a :: b :: ps) = S (List.length qs)) by (rewrite Eq, app_length; cbn; lia).
    rewrite cut_last_dot by apply Fq. rewrite in_app_iff, !look_inside_in.
    assert (Fb : Forall dotless (b :: ps)) by now inversion_clear F. cbn [List.length] in L, Lq. split.
    + intros [(l & x & inner & I & W & H)|(l & x & inner & I & W & H)].
      * apply IH in H; [|discriminate|exact Fb|cbn [List.length]; lia]. rewrite <- Eq. now apply leads_front with l inner x.
      * apply IH in H; [|exact Nq|apply Fq|lia]. now apply leads_back with l inner x.
    + intros H. destruct (leads_step ci (qs ++ [z]) sc o) as (y & ps' & Ey & l & x & inner & I & W & H'); [rewrite <- Eq; cbn; lia|exact H|].
      destruct Ey as [Ey|Ey].
      * left. rewrite <- Eq in Ey. injection Ey as <- <-. exists l, x, inner. split; [exact I|]. split; [exact W|]. apply IH; [discriminate|exact Fb|cbn [List.length]; lia|exact H'].
      * right. apply app_inj_tail in Ey. destruct Ey as [<- <-]. exists l, x, inner. split; [exact I|]. split; [exact W|]. apply IH; [exact Nq|apply Fq|lia|exact H'].
Qed.
