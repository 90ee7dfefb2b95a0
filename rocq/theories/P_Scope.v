(* C21: what a parameter name means, and definitions that refer to themselves *)
Require Import ZArith List Ascii Bool Lia.
Require Import Verif.Wmatch_Model Verif.Value_Model Verif.Expr_Model Verif.Expr_Sem Verif.Expr_Proofs Verif.Scope_Model Verif.Scope_Proofs Verif.P_Expr.
Import ListNotations.
Local Open Scope Z_scope.

(* ---- vocabulary ---- *)
Section Vocabulary.
Variable B : dbl.
(* a list gives the name a value of its own *)
Definition defines (m : pmap B) (n : name) (p : pinst B) : Prop := find m n = Some p /\ p_s p <> PNone.
Definition silent (m : pmap B) (n : name) : Prop := forall p, find m n = Some p -> p_s p = PNone.
(* keys are stored in the case they are looked up in *)
Definition stored (ci : bool) (n : name) : name := if ci then map to_lower n else n.
(* the class a passed value gets: that declared in the subcircuit, else that of the number *)
Definition declared (proto : pmap B) (n : name) (b : value B) : option ptype :=
  match find proto n with
  | None => Some (PFlt false)
  | Some k => match p_ty k with
              | Some t => Some t
              | None => match b with VF _ _ => Some (PFlt false) | VI _ _ _ => Some (PInt false) | VS _ _ => None end
              end
  end.
End Vocabulary.

Lemma hard_iff : forall B (p : pinst B), hard p = true <-> p_s p <> PNone.
Proof. intros B [ty s]. unfold hard. cbn. destruct s; split; congruence. Qed.
Lemma not_hard_iff : forall B (p : pinst B), hard p = false <-> p_s p = PNone.
Proof. intros B [ty s]. unfold hard. cbn. destruct s; split; congruence. Qed.
Lemma lower_idem : forall c, to_lower (to_lower c) = to_lower c.
Proof. intros [[] [] [] [] [] [] [] []]; reflexivity. Qed.
Lemma fold_idem : forall ci n, fold_case ci (fold_case ci n) = fold_case ci n.
Proof. intros [] n; [|reflexivity]. unfold fold_case. rewrite map_map. apply map_ext. exact lower_idem. Qed.
Lemma deep_fold : forall B ci c n, deep_lookup B ci c (fold_case ci n) = deep_lookup B ci c n.
Proof. intros B ci [|m c] n; cbn; [reflexivity|]. now rewrite fold_idem. Qed.
Lemma silent_or : forall B (m : pmap B) n, silent B m n \/ exists p, defines B m n p.
Proof.
  intros B m n. unfold silent, defines. destruct (find m n) as [p|]; [|left; discriminate].
  destruct (hard p) eqn:E; [right; exists p; split; [reflexivity|now apply hard_iff]|left; intros p' H; injection H as <-; now apply not_hard_iff].
Qed.
Lemma deep_cons_def : forall B ci m c n p, defines B m (fold_case ci n) p -> deep_lookup B ci (m :: c) n = p.
Proof. intros B ci m c n p [F H]. cbn. rewrite F. now rewrite (proj2 (hard_iff B p) H). Qed.
Lemma deep_cons_silent : forall B ci m c n, silent B m (fold_case ci n) -> deep_lookup B ci (m :: c) n = deep_lookup B ci c n.
Proof.
  intros B ci m c n H. cbn. rewrite <- (deep_fold B ci c n). destruct (find m (fold_case ci n)) as [p|] eqn:E; [|reflexivity].
  now rewrite (proj2 (not_hard_iff B p) (H p E)).
Qed.

(* The innermost list that gives the name a value decides; without one the name is open *)
Theorem C21_innermost : forall B ci (c : list (pmap B)) n,
  (exists outer m inner p, c = inner ++ m :: outer /\ defines B m (stored ci n) p /\ Forall (fun m' => silent B m' (stored ci n)) inner /\
     deep_lookup B ci c n = p) \/
  (Forall (fun m' => silent B m' (stored ci n)) c /\ deep_lookup B ci c n = mkpi None PNone).
Proof.
  intros B ci c n. change (stored ci n) with (fold_case ci n). induction c as [|m c IH].
  - right. split; [constructor|reflexivity].
  - destruct (silent_or B m (fold_case ci n)) as [S|(p & D)].
    + rewrite (deep_cons_silent B ci m c n S). destruct IH as [(outer & m' & inner & p & -> & D & F & E)|[F E]].
      * left. exists outer, m', (m :: inner), p. repeat split; try (apply D); [now constructor|assumption].
      * right. split; [now constructor|assumption].
    + left. exists c, m, [], p. split; [reflexivity|]. split; [assumption|]. split; [constructor|]. now apply deep_cons_def.
Qed.
Print Assumptions C21_innermost.

Section Machine.
Variable B : dbl.
Variable lit : name -> value B.
Variable fn : name -> option (list (tok B) -> res (list (tok B) * bool)).
Variable parse : name -> list (tok B).
Variable text : value B -> name.
Variable ci : bool.
Variable limit : nat.
Notation deep_lookup := (deep_lookup B ci).
Notation lookup := (lookup B parse text ci).
Notation e_val := (e_val B lit fn parse text ci limit).
Notation eval_copy := (eval_copy B lit fn parse text ci limit).

(* ---- counting ---- *)
Lemma e_val_balanced : forall c l p v l', e_val c l p = (OK v, l') -> l' = l.
Proof.
  intros c. induction l as [|l IH]; intros p v l' H; [discriminate|]. cbn in H.
  destruct (p_s p) as [|w|s]; try congruence.
  destruct (reduce _ _ _ _ _ _) as [e| |]; try congruence.
  match type of H with match ?d with _ => _ end = _ => destruct d as [x| |]; try congruence end.
  destruct (present B x) as [w|]; [congruence|].
  destruct (e_val c l (deep_lookup c s)) as [[b| |] l2] eqn:E; try congruence. apply IH in E. subst l2.
  destruct (p_ty p), b; apply (f_equal snd) in H; cbn in H; congruence.
Qed.

(* ---- the scope of an instance ---- *)
Lemma find_app : forall (m m' : pmap B) n, find (m ++ m') n = match find m n with Some p => Some p | None => find m' n end.
Proof. induction m as [|[k p] m IH]; intros m' n; cbn; [reflexivity|]. destruct (list_eq_dec ascii_dec k n); [reflexivity|apply IH]. Qed.
Lemma copy_spec : forall c proto args l own own' l',
  NoDup (map fst args) -> eval_copy c (Some proto) args l own = (OK own', l') -> (forall n, In n (map fst args) -> find own n = None) ->
  l' = l /\
  forall n, match find args n with
  | Some p =>
      if hard p then exists ob, fst (e_val c l p) = OK ob /\
        let pi := match find proto n with Some k => k | None => mkpi (Some (PFlt false)) PNone end in
        exists pi', find own' n = Some pi' /\
          match present B ob with Some b => set_fixed B pi b = OK pi' | None => pi' = pi end
      else find own' n = find own n
  | None => find own' n = find own n
  end.
Proof.
  intros c proto. induction args as [|[k p] args IH]; intros l own own' l' ND H N.
  - cbn in H. injection H as <- <-. split; [reflexivity|]. intros n. reflexivity.
  - cbn [map fst] in ND. inversion ND as [|? ? Nk ND']; subst. cbn in H.
    assert (Fk : find args k = None).
    { clear - Nk. induction args as [|[j q] args IH]; [reflexivity|]. cbn in *. destruct (list_eq_dec ascii_dec j k) as [->|]; [now elim Nk; left|apply IH; tauto]. }
    destruct (hard p) eqn:Hp.
    2:{ destruct (IH l own own' l' ND' H (fun n Hn => N n (or_intror Hn))) as [El S]. split; [exact El|]. intros n. pose proof (S n) as Sn. cbn [find].
        destruct (list_eq_dec ascii_dec k n) as [->|]; [|exact Sn]. rewrite Hp. now rewrite Fk in Sn. }
    rewrite (N k (or_introl eq_refl)) in H.
    set (pi := match find proto k with Some k0 => k0 | None => mkpi (Some (PFlt false)) PNone end) in *.
    destruct (e_val c l p) as [[ob| |] l2] eqn:Ee; try discriminate. pose proof (e_val_balanced _ _ _ _ _ Ee). subst l2.
    assert (Go : forall pi', eval_copy c (Some proto) args l (own ++ [(k, pi')]) = (OK own', l') ->
      (match present B ob with Some b => set_fixed B pi b = OK pi' | None => pi' = pi end) ->
      l' = l /\ forall n, match find ((k, p) :: args) n with
        | Some p => if hard p then exists ob, fst (e_val c l p) = OK ob /\
            let pi := match find proto n with Some k => k | None => mkpi (Some (PFlt false)) PNone end in
            exists pi', find own' n = Some pi' /\ match present B ob with Some b => set_fixed B pi b = OK pi' | None => pi' = pi end
          else find own' n = find own n
        | None => find own' n = find own n end).
    { intros pi' E Hpi. destruct (IH l (own ++ [(k, pi')]) own' l' ND' E) as [El S].
      - intros n Hn. rewrite find_app, (N n (or_intror Hn)). cbn. destruct (list_eq_dec ascii_dec k n) as [->|]; [contradiction|reflexivity].
      - split; [exact El|]. intros n. pose proof (S n) as Sn. cbn [find].
        destruct (list_eq_dec ascii_dec k n) as [<-|Nn].
        + rewrite Hp. rewrite Fk, find_app, (N k (or_introl eq_refl)) in Sn. cbn in Sn. destruct (list_eq_dec ascii_dec k k) as [_|]; [|congruence].
          exists ob. rewrite Ee. split; [reflexivity|]. exists pi'. split; [exact Sn|exact Hpi].
        + rewrite find_app in Sn. cbn in Sn. destruct (list_eq_dec ascii_dec k n) as [|_]; [congruence|].
          destruct (find args n) as [p2|]; [destruct (hard p2); [exact Sn|]|]; destruct (find own n); exact Sn. }
    destruct (present B ob) as [b|].
    + destruct (set_fixed B pi b) as [pi'| |] eqn:Es; try discriminate. exact (Go pi' H eq_refl).
    + exact (Go pi H eq_refl).
Qed.

(* Inside an instance: a name that was passed means the value the argument has for the caller,
   converted to the declared class; a name not passed, or passed without a value, means what it
   means in the subcircuit.  (A string for a parameter without a class is refused, see below.) *)
Theorem C21_instance_scope : forall caller proto args l own l',
  NoDup (map fst args) -> eval_copy caller (Some proto) args l [] = (OK own, l') ->
  forall n, match find args (stored ci n) with
  | Some p =>
      match p_s p with
      | PNone => deep_lookup [own; proto] n = deep_lookup [proto] n
      | _ => exists ob, fst (e_val caller l p) = OK ob /\
          match ob with
          | Some b =>
              if is_NA B b then deep_lookup [own; proto] n = deep_lookup [proto] n
              else match declared B proto (stored ci n) b with
                   | Some t => exists w, assign B t b = Val w /\ deep_lookup [own; proto] n = mkpi (Some t) (PFixed w)
                   | None => True
                   end
          | None => deep_lookup [own; proto] n = deep_lookup [proto] n
          end
      end
  | None => deep_lookup [own; proto] n = deep_lookup [proto] n
  end.
Proof.
  intros caller proto args l own l' ND H n.
  destruct (copy_spec caller proto args l [] own l' ND H (fun _ _ => eq_refl)) as [_ S]. specialize (S (stored ci n)).
  change (fold_case ci n) with (stored ci n) in *.
  assert (Sil : find own (stored ci n) = None -> deep_lookup [own; proto] n = deep_lookup [proto] n).
  { intros E. apply deep_cons_silent. intros p Ep. change (fold_case ci n) with (stored ci n) in Ep. congruence. }
  assert (Keep : find own (stored ci n) = Some match find proto (stored ci n) with Some k => k | None => mkpi (Some (PFlt false)) PNone end ->
    deep_lookup [own; proto] n = deep_lookup [proto] n).
  { intros E. destruct (find proto (stored ci n)) as [k|] eqn:Ek.
    - destruct (hard k) eqn:Hk.
      + rewrite (deep_cons_def B ci own [proto] n k) by (split; [exact E|now apply hard_iff]). symmetry. apply deep_cons_def. split; [exact Ek|now apply hard_iff].
      + apply deep_cons_silent. intros p Ep. change (fold_case ci n) with (stored ci n) in Ep. rewrite E in Ep. injection Ep as <-. now apply not_hard_iff.
    - apply deep_cons_silent. intros p Ep. change (fold_case ci n) with (stored ci n) in Ep. rewrite E in Ep. injection Ep as <-. reflexivity. }
  destruct (find args (stored ci n)) as [p|] eqn:Ea; [|exact (Sil S)].
  destruct (p_s p) as [|pv|ps] eqn:Ep; [unfold hard in S; rewrite Ep in S; exact (Sil S)| |];
  (unfold hard in S; rewrite Ep in S; destruct S as (ob & Eo & pi' & Ef & Hpi); exists ob; split; [exact Eo|];
   destruct ob as [b|]; cbn in Hpi; [|subst pi'; exact (Keep Ef)]; destruct (is_NA B b) eqn:En; [subst pi'; exact (Keep Ef)|];
   unfold declared; destruct (find proto (stored ci n)) as [k|] eqn:Ek; cbn in Hpi;
   [unfold set_fixed in Hpi; destruct (p_ty k) as [t|];
     [destruct (assign B t b) as [w| | |]; try discriminate; injection Hpi as <-; exists w; split; [reflexivity|]; apply deep_cons_def; split; [exact Ef|discriminate]
     |destruct b as [v i z|v d|v q]; [| |exact I];
       match type of Hpi with match ?a with _ => _ end = _ => destruct a as [w| | |] eqn:Ea2; try discriminate end; injection Hpi as <-; exists w; (split; [first [exact Ea2|reflexivity]|]); apply deep_cons_def; (split; [exact Ef|discriminate])]
   |match type of Hpi with match ?a with _ => _ end = _ => destruct a as [w| | |] eqn:Ea2; try discriminate end; injection Hpi as <-; exists w; split; [first [exact Ea2|reflexivity]|]; apply deep_cons_def; split; [exact Ef|discriminate]]).
Qed.

(* ---- definitions that refer to themselves ---- *)
(* [tree]: the expression a text stands for.  A set of names each of which is defined by an expression
   that needs another of them: nothing that needs one of them gets a value, whatever the limit. *)
Theorem C21_cycle_has_no_value : forall c (tree : name -> expr B) (Cyc : name -> Prop),
  (forall n f, fn n = Some f -> tidy B f) ->
  (forall n, hard (deep_lookup c n) = true -> parse (string_of B text (deep_lookup c n)) = rpn B (tree (string_of B text (deep_lookup c n)))) ->
  (forall n, Cyc n -> is_lit n = false /\ hard (deep_lookup c n) = true /\
     exists m, mentions B m (tree (string_of B text (deep_lookup c n))) /\ Cyc m) ->
  forall e m, mentions B m e -> Cyc m ->
  (forall k st, reduce B lit (lookup c) fn k (rpn B e) <> OK st) /\
  (forall p s left, p_s p = PText s -> parse s = rpn B e -> forall v, fst (e_val c left p) <> OK v).
Proof.
  intros c tree Cyc FT Tr HC e m M HM.
  set (pdef := fun n => if hard (deep_lookup c n) then Some (p_ty (deep_lookup c n), tree (string_of B text (deep_lookup c n))) else None).
  assert (Ex : forall n, lookup c n = scope_lookup B pdef n).
  { intros n. unfold Scope_Model.lookup, scope_lookup, pdef. destruct (hard (deep_lookup c n)) eqn:E; [|reflexivity]. cbn. now rewrite Tr. }
  assert (H1 : forall k st, reduce B lit (lookup c) fn k (rpn B e) <> OK st).
  { intros k st. rewrite (reduce_ext B lit _ _ fn Ex). apply (cyc_reduce B lit pdef fn FT Cyc) with (m := m); try assumption.
    intros n Hn. destruct (HC n Hn) as (El & Hh & m' & M' & HM'). split; [exact El|].
    exists (p_ty (deep_lookup c n)), (tree (string_of B text (deep_lookup c n))). split; [unfold pdef; now rewrite Hh|]. now exists m'. }
  split; [exact H1|]. intros p s [|left] Es Ep v H; [discriminate|]. cbn in H. rewrite Es, Ep in H.
  destruct (reduce B lit (lookup c) fn limit (rpn B e)) as [x| |] eqn:E; try discriminate. exact (H1 _ _ E).
Qed.

(* When such a reference is reached before anything has been computed, the outcome is the exception *)
Theorem C21_cycle_reported : forall c (Cyc : name -> Prop),
  (forall n, Cyc n -> is_lit n = false /\ hard (deep_lookup c n) = true /\
     exists pre m post, parse (string_of B text (deep_lookup c n)) = pre ++ TSym m :: post /\ Forall (leaf B) pre /\ Cyc m) ->
  forall k pre m post, Forall (leaf B) pre -> Cyc m -> reduce B lit (lookup c) fn k (pre ++ TSym m :: post) = Thrown.
Proof.
  intros c Cyc HC. apply cyc_thrown. intros n Hn. destruct (HC n Hn) as (El & Hh & pre & m & post & E & F & HM). split; [exact El|].
  exists (p_ty (deep_lookup c n)), pre, m, post. split; [|now split]. unfold Scope_Model.lookup. now rewrite Hh, E.
Qed.

(* A result other than the exception does not depend on the limit *)
Theorem C21_limit_irrelevant : forall c k k' l, (k <= k')%nat -> reduce B lit (lookup c) fn k l <> Thrown ->
  reduce B lit (lookup c) fn k' l = reduce B lit (lookup c) fn k l.
Proof. intros. now apply reduce_mono. Qed.

(* ---- the counter of PARAM_INSTANCE::e_val ---- *)
Theorem C21_counter_restored : forall c l p v, fst (e_val c l p) = OK v -> snd (e_val c l p) = l.
Proof. intros c l p v H. apply (e_val_balanced c l p v). rewrite <- H. now destruct (e_val c l p). Qed.

(* ---- the declared class ---- *)
(* what a value becomes in a class: reals are truncated to integers, where they fit; integers become
   reals; text stays as it is *)
Definition converted (t : ptype) (v w : value B) : Prop :=
  match t, v, w with
  | PInt k, VI _ _ n, VI k' i' n' => k' = k /\ i' = true /\ n' = n
  | PInt k, VF _ d, VI k' i' n' => k' = k /\ i' = true /\ dtoi B d = Some n'
  | PFlt k, VI _ _ n, VF k' d' => k' = k /\ d' = dofz B n
  | PFlt k, VF _ d, VF k' d' => k' = k /\ d' = d
  | PStr k, VS _ s, VS k' s' => k' = k /\ s' = s
  | _, _, _ => False
  end.
(* a number for a numeric class, text for a class of texts (a verilog one takes verilog text only) *)
Definition suits (t : ptype) (v : value B) : Prop :=
  match t, v with PStr k, VS k' _ => k = true -> k' = true | PStr _, _ => False | _, VS _ _ => False | _, _ => True end.
(* A parameter with a declared class: all its values have that class, and where the expression has a
   value, that is the value, converted *)
Theorem C21_declared_class : forall c l p t w, p_ty p = Some t -> fst (e_val c l p) = OK (Some w) ->
  (forall v, p_s p = PFixed v -> class_of B v = t) ->
  class_of B w = t /\
  forall s v, p_s p = PText s -> reduce B lit (lookup c) fn limit (parse s) = OK [TConst v] ->
    is_NA B v = false -> suits t v -> (forall n, deq B (dofz B n) (dNA B) = false) -> converted t v w.
Proof.
  intros c l p t w Et H Hf. destruct l as [|l]; [discriminate|]. cbn [Scope_Model.e_val] in H. rewrite Et in H.
  destruct (p_s p) as [|v|s] eqn:Es.
  - injection H as <-. split; [now destruct t|discriminate].
  - injection H as <-. split; [now apply Hf|discriminate].
  - assert (A : forall v w, assign B t v = Val w -> class_of B w = t).
    { clear. intros v w H. destruct t as [[]|k|[]], v as [k' i n|k' d|[] x]; cbn in H; unfold ival in H; try discriminate;
        try (injection H as <-; reflexivity); destruct (dtoi B d) as [z|]; try discriminate; destruct (fits z); try discriminate; now injection H as <-. }
    assert (G : forall b w, get_as B t b = Some w -> class_of B w = t).
    { clear. intros b w H. destruct t as [k|k|k], b as [k' i n|k' d|k' x]; cbn in H; try discriminate; destruct (k && negb k'); try discriminate; now injection H as <-. }
    destruct (reduce B lit (lookup c) fn limit (parse s)) as [e| |] eqn:Er; try discriminate. cbv iota beta zeta in H.
    assert (W : fst (match e_val c l (deep_lookup c s) with
          | (OK (Some b), l) => (match get_as B t b with Some w => OK (Some w) | None => Undef end, S l)
          | (OK None, l) => (OK (Some (na B t)), S l)
          | (r, l) => (r, l)
          end) = OK (Some w) -> class_of B w = t).
    { destruct (e_val c l (deep_lookup c s)) as [[[b|]| |] l2]; intros E; try discriminate.
      - cbn in E. destruct (get_as B t b) as [w'|] eqn:Eg; [|discriminate]. injection E as <-. exact (G _ _ Eg).
      - injection E as <-. now destruct t. }
    split.
    + destruct (value_of B e) as [v|] eqn:Ev; [|exact (W H)].
      destruct (assign B t v) as [x| | |] eqn:Ea; cbn [lift present] in H; try discriminate; [|exact (W H)].
      destruct (is_NA B x); [exact (W H)|]. injection H as <-. exact (A _ _ Ea).
    + intros s' v E Er' Nv Su Hn. injection E as <-. rewrite Er in Er'. injection Er' as ->. clear W. cbn [value_of] in H.
      destruct t as [[]|k|[]], v as [k' [] n|k' d|[] x]; try (now destruct Su); cbn in Nv; try discriminate Nv; cbn in H;
        rewrite ?Hn, ?Nv in H; cbn in H; unfold ival in H;
        try (destruct (dtoi B d) as [z|] eqn:Ed; [destruct (fits z)|]; cbn in H; try discriminate H);
        try (injection H as <-; now repeat split).
      now specialize (Su eq_refl).
Qed.

(* It is not restored when an evaluation ends with an exception: after as many of those as the limit
   allows, a parameter whose value is known is reported as too deep *)
Fixpoint after (c : list (pmap B)) (n : nat) (bad : pinst B) (l : nat) : nat :=
  match n with O => l | S n' => after c n' bad (snd (e_val c l bad)) end.
Theorem C21_counter_refuted : forall c bad s good v, p_s bad = PText s -> reduce B lit (lookup c) fn limit (parse s) = Thrown ->
  p_s good = PFixed v -> limit <> O ->
  fst (e_val c limit good) = OK (Some v) /\ fst (e_val c (after c limit bad limit) good) = Thrown.
Proof.
  intros c bad s good v Es Er Eg Hl. split.
  - destruct limit as [|l]; [congruence|]. cbn. now rewrite Eg.
  - assert (A : forall n l, (n <= l)%nat -> after c n bad l = (l - n)%nat).
    { induction n as [|n IH]; intros l Hn; cbn [after]; [lia|]. destruct l as [|l]; [lia|]. cbn [Scope_Model.e_val]. rewrite Es, Er. cbn [snd]. rewrite IH; lia. }
    rewrite A by lia. rewrite Nat.sub_diag. reflexivity.
Qed.

(* a string passed for a parameter without a class is ignored *)
Theorem C21_string_argument_refuted : forall caller k d v s args, fn = (fun _ => None) -> limit <> O -> stored ci k = k -> p_s d <> PNone -> p_ty d = None -> args = [(k, mkpi (Some (PStr v)) (PFixed (VS v (Some s))))] ->
  exists own, eval_copy caller (Some [(k, d)]) args limit [] = (OK own, limit) /\ deep_lookup [own; [(k, d)]] k = d.
Proof.
  intros caller k d v s args Ef Hl Hk Hd Ht ->. exists [(k, d)]. split.
  - cbn. destruct (list_eq_dec ascii_dec k k) as [_|]; [|congruence]. destruct limit as [|l]; [congruence|]. cbn.
    unfold set_fixed. rewrite Ht. reflexivity.
  - apply deep_cons_def. change (fold_case ci k) with (stored ci k). rewrite Hk. split; [|exact Hd]. cbn. destruct (list_eq_dec ascii_dec k k); congruence.
Qed.
End Machine.
Print Assumptions C21_instance_scope.
Print Assumptions C21_cycle_has_no_value.
Print Assumptions C21_cycle_reported.
Print Assumptions C21_limit_irrelevant.
Print Assumptions C21_counter_restored.
Print Assumptions C21_declared_class.
Print Assumptions C21_counter_refuted.
Print Assumptions C21_string_argument_refuted.

(* ---- cases ---- *)
(* The caller has w = 3 and the cycle a = b+1, b = 2*a.  The subcircuit declares real r = 1, integer
   n = 1 and k = 1 without a class; the instance passes r = w*w, n = w/2. *)
Definition str (s : list ascii) : name := s.
Definition t3 : name := ["3"%char]. Definition tww : name := ["w"; "*"; "w"]%char. Definition tw2 : name := ["w"; "/"; "2"]%char.
Definition tb1 : name := ["b"; "+"; "1"]%char. Definition ta2 : name := ["2"; "*"; "a"]%char.
Definition sym (c : ascii) : expr QD := ESym [c].
Definition tree0 (s : name) : expr QD :=
  if list_eq_dec ascii_dec s tww then EBin BMul (sym "w") (sym "w")
  else if list_eq_dec ascii_dec s tw2 then EBin BDiv (sym "w") (int_ 2)
  else if list_eq_dec ascii_dec s tb1 then EBin BAdd (sym "b") (int_ 1)
  else if list_eq_dec ascii_dec s ta2 then EBin BMul (int_ 2) (sym "a")
  else sym "3".
Definition parse0 (s : name) : list (tok QD) := rpn QD (tree0 s).
Definition text0 (v : value QD) : name := t3.
Definition lit3 (n : name) : value QD := VI false true 3.
Definition caller0 : pmap QD :=
  [(["w"%char], mkpi (Some (PInt false)) (PFixed (VI false true 3))); (["a"%char], mkpi None (PText tb1)); (["b"%char], mkpi None (PText ta2))].
Definition proto0 : pmap QD :=
  [(["r"%char], mkpi (Some (PFlt false)) (PText t3)); (["n"%char], mkpi (Some (PInt false)) (PText t3)); (["k"%char], mkpi None (PText t3))].
Definition args0 : pmap QD := [(["r"%char], mkpi None (PText tww)); (["n"%char], mkpi None (PText tw2))].
Definition no_fn0 : name -> option (list (tok QD) -> res (list (tok QD) * bool)) := fun _ => None.
Example ex_C21_instance : exists own, eval_copy QD lit3 no_fn0 parse0 text0 true 20 [caller0] (Some proto0) args0 20 [] = (OK own, 20%nat) /\
  NoDup (map fst args0) /\
  deep_lookup QD true [own; proto0] ["R"%char] = mkpi (Some (PFlt false)) (PFixed (VF false (dofz QD 9))) /\
  deep_lookup QD true [own; proto0] ["n"%char] = mkpi (Some (PInt false)) (PFixed (VI false true 1)) /\
  deep_lookup QD true [own; proto0] ["k"%char] = mkpi None (PText t3) /\
  deep_lookup QD true [own; proto0] ["w"%char] = mkpi None PNone.
Proof.
  eexists. split; [reflexivity|]. split; [repeat constructor; cbn; intuition discriminate|]. repeat split; reflexivity.
Qed.
Definition Cyc0 (n : name) : Prop := n = ["a"%char] \/ n = ["b"%char].
Example ex_C21_cycle :
  (forall n, hard (deep_lookup QD true [caller0] n) = true -> parse0 (string_of QD text0 (deep_lookup QD true [caller0] n)) = rpn QD (tree0 (string_of QD text0 (deep_lookup QD true [caller0] n)))) /\
  (forall n, Cyc0 n -> is_lit n = false /\ hard (deep_lookup QD true [caller0] n) = true /\
     (exists m, mentions QD m (tree0 (string_of QD text0 (deep_lookup QD true [caller0] n))) /\ Cyc0 m) /\
     exists pre m post, parse0 (string_of QD text0 (deep_lookup QD true [caller0] n)) = pre ++ TSym m :: post /\ Forall (leaf QD) pre /\ Cyc0 m) /\
  reduce QD lit3 (lookup QD parse0 text0 true [caller0]) no_fn0 20 (rpn QD (EBin BAdd (sym "a") (int_ 1))) = Thrown /\
  reduce QD lit3 (lookup QD parse0 text0 true [caller0]) no_fn0 20 (rpn QD (EBin BAdd (sym "w") (int_ 1))) = OK [TConst (VI false true 4)].
Proof.
  split; [reflexivity|]. split; [|split; reflexivity]. intros n [-> | ->].
  - split; [reflexivity|]. split; [reflexivity|]. split; [exists ["b"%char]; split; [left; reflexivity|right; reflexivity]|].
    exists [], ["b"%char], [TConst (VI false true 1); TBin BAdd]. split; [reflexivity|]. split; [constructor|right; reflexivity].
  - split; [reflexivity|]. split; [reflexivity|]. split; [exists ["a"%char]; split; [right; reflexivity|left; reflexivity]|].
    exists [TConst (VI false true 2)], ["a"%char], [TBin BMul]. split; [reflexivity|]. split; [repeat constructor|left; reflexivity].
Qed.
(* the counter: evaluating a twenty times makes w too deep *)
Example ex_C21_counter : fst (e_val QD lit3 no_fn0 parse0 text0 true 20 [caller0] (after QD lit3 no_fn0 parse0 text0 true 20 [caller0] 20 (mkpi None (PText tb1)) 20)
  (mkpi (Some (PInt false)) (PFixed (VI false true 3)))) = Thrown.
Proof. reflexivity. Qed.
(* an integer declared as w/2 with w = 3 is 1; the same without a class is 3/2 *)
Example ex_C21_declared :
  reduce QD lit3 (lookup QD parse0 text0 true [caller0]) no_fn0 20 (parse0 tw2) = OK [TConst (VF false (ddiv QD (dofz QD 3) (dofz QD 2)))] /\
  e_val QD lit3 no_fn0 parse0 text0 true 20 [caller0] 20 (mkpi (Some (PInt false)) (PText tw2)) = (OK (Some (VI false true 1)), 20%nat) /\
  suits QD (PInt false) (VF false (ddiv QD (dofz QD 3) (dofz QD 2))).
Proof. split; [reflexivity|split; [reflexivity|exact I]]. Qed.
