(* C18: trim.  C48: logical lines. *)
Require Import List Ascii String Bool Arith Lia.
Require Import Verif.Loops Verif.Wmatch_Model Verif.CS_Model Verif.Lines_Model.
Import ListNotations.

(* ---- vocabulary ---- *)
Definition no_nul (l : list ascii) : Prop := ~ In NUL l.
Definition invisible (l : list ascii) : Prop := Forall (fun c => isgraph c = false) l.
(* empty, or the last character is visible *)
Definition ends_visible (l : list ascii) : Prop := l = [] \/ exists l' c, l = l' ++ [c] /\ isgraph c = true.

(* ---- trim ---- *)
Lemma strlen_app : forall t b, no_nul t -> strlen (t ++ NUL :: b) = Some (List.length t).
Proof.
  induction t as [|c t IH]; intros b H; cbn [app strlen]; [reflexivity|].
  destruct (Ascii.eqb_spec c NUL) as [->|N]; [exfalso; apply H; now left|].
  rewrite IH by (intros X; apply H; now right). reflexivity.
Qed.
Lemma c_str_app : forall t b, no_nul t -> c_str (t ++ NUL :: b) = Some t.
Proof.
  intros t b H. unfold c_str. rewrite strlen_app by assumption. cbn [bind].
  now rewrite firstn_app, firstn_all, Nat.sub_diag, app_nil_r.
Qed.
Lemma store_app : forall a c b x, store (a ++ c :: b) (List.length a) x = a ++ x :: b.
Proof. induction a as [|y a IH]; intros c b x; cbn; [reflexivity|]. now rewrite IH. Qed.
Lemma nth_mid : forall (a : list ascii) c b, nth_error (a ++ c :: b) (List.length a) = Some c.
Proof. induction a as [|y a IH]; intros c b; cbn; [reflexivity|apply IH]. Qed.

Lemma trim_loop_ok : forall t b, exists t' pad, t = t' ++ pad /\ invisible pad /\ ends_visible t' /\
  trim_loop (List.length t) (t ++ b) = Some (t' ++ repeat NUL (List.length pad) ++ b).
Proof.
  intros t. induction t as [|c t IH] using rev_ind; intros b.
  - exists [], []. repeat split; [constructor|now left].
  - rewrite app_length. cbn [List.length]. rewrite Nat.add_comm. cbn [trim_loop Nat.add].
    rewrite <- app_assoc. cbn [app]. rewrite nth_mid. cbn [bind]. destruct (isgraph c) eqn:E.
    + exists (t ++ [c]), []. split; [now rewrite app_nil_r|]. split; [constructor|].
      split; [right; now exists t, c|]. cbn. now rewrite <- app_assoc.
    + rewrite store_app. destruct (IH (NUL :: b)) as (t' & pad & -> & Hi & Hv & Ht).
      exists t', (pad ++ [c]). split; [now rewrite app_assoc|]. split; [apply Forall_app; split; [assumption|now repeat constructor]|].
      split; [assumption|]. rewrite Ht. do 2 f_equal. rewrite app_length. cbn [List.length].
      rewrite repeat_app. cbn. now rewrite <- app_assoc.
Qed.
Lemma ends_unique : forall t' pad u v, t' ++ pad = u ++ v -> invisible pad -> ends_visible t' -> invisible v -> ends_visible u -> t' = u /\ pad = v.
Proof.
  assert (G : forall t' pad u v, t' ++ pad = u ++ v -> ends_visible t' -> invisible v -> exists w, u = t' ++ w).
  { intros t' pad u v E [->|(l & c & -> & Hc)] Hv; [now exists u|].
    revert u E. induction l as [|x l IH]; intros u E; cbn in *.
    - destruct u as [|y u]; [|injection E as -> _; now exists u]. cbn in E. subst v. inversion_clear Hv. congruence.
    - destruct u as [|y u]; cbn in E.
      + exfalso. subst v. inversion_clear Hv as [|? ? _ H]. apply Forall_app in H. destruct H as [H _]. apply Forall_app in H. destruct H as [_ H].
        inversion_clear H. congruence.
      + injection E as -> E. destruct (IH u E) as [w ->]. now exists w. }
  intros t' pad u v E Hp Ht Hv Hu. destruct (G _ _ _ _ E Ht Hv) as [w Ew]. destruct (G _ _ _ _ (eq_sym E) Hu Hp) as [w' Ew'].
  assert (w = []).
  { apply (f_equal (@List.length ascii)) in Ew. apply (f_equal (@List.length ascii)) in Ew'. rewrite app_length in *. destruct w; [reflexivity|cbn in *; lia]. }
  subst w. rewrite app_nil_r in Ew. subst u. split; [reflexivity|]. now apply app_inv_head in E.
Qed.

(* the string in the block becomes its longest prefix that is empty or ends visibly; nothing after
   the string changes *)
Theorem C18_trim : forall text junk, no_nul text ->
  exists kept pad, text = kept ++ pad /\ invisible pad /\ ends_visible kept /\
    trim (text ++ NUL :: junk) = Some (kept ++ repeat NUL (List.length pad) ++ NUL :: junk) /\
    (let* b := trim (text ++ NUL :: junk) in c_str b) = Some kept.
Proof.
  intros text junk H. unfold trim. rewrite strlen_app by assumption. cbn [bind].
  destruct (trim_loop_ok text (NUL :: junk)) as (k & p & E & Hp & Hk & Ht). exists k, p. split; [assumption|]. split; [assumption|]. split; [assumption|].
  split; [exact Ht|]. rewrite Ht. cbn [bind]. assert (Nk : no_nul k) by (subst text; intros X; apply H, in_or_app; now left).
  destruct p; cbn; now apply c_str_app.
Qed.
Print Assumptions C18_trim.

(* that prefix is unique, and trimming it again changes nothing *)
Theorem C18_trim_unique_idempotent : forall text kept pad junk b, no_nul text -> text = kept ++ pad -> invisible pad -> ends_visible kept ->
  trim (text ++ NUL :: junk) = Some b -> c_str b = Some kept /\ trim b = Some b.
Proof.
  intros text kept pad junk b H E Hp Hk Ht. destruct (C18_trim text junk H) as (k & p & E' & Hp' & Hk' & Ht' & Hc).
  assert (X : kept = k /\ pad = p) by (apply ends_unique; congruence). destruct X as [<- <-].
  rewrite Ht in Ht'. injection Ht' as ->. rewrite Ht in Hc. cbn [bind] in Hc. split; [exact Hc|].
  assert (Nk : no_nul kept) by (subst text; intros X; apply H, in_or_app; now left).
  assert (G : forall rest, trim (kept ++ NUL :: rest) = Some (kept ++ NUL :: rest)).
  { intros rest. destruct (C18_trim kept rest Nk) as (k2 & p2 & E2 & Hp2 & Hk2 & Ht2 & _).
    assert (X : kept = k2 /\ [] = p2) by (apply ends_unique; try assumption; [now rewrite app_nil_r|constructor]).
    destruct X as [<- <-]. exact Ht2. }
  destruct pad; cbn; apply G.
Qed.
Print Assumptions C18_trim_unique_idempotent.
Example C18_case : (let* b := trim (str " a b  " ++ NUL :: str "zz") in c_str b) = Some (str " a b").
Proof. vm_compute. reflexivity. Qed.

(* ---- C48: logical lines ---- *)
Definition on_one_line (l : list ascii) : Prop := ~ In NUL l /\ ~ In NL l.
Definition spaces (l : list ascii) : Prop := Forall (fun c => isspace c = true) l.
Definition ends_in_backslash (l : list ascii) : Prop := exists l', l = l' ++ ["\"%char].

(* the text of one logical line (without the end of its last physical line) and what it stands for.
   n is the size of the line buffer. *)
Inductive logical (n : nat) : list ascii -> list ascii -> Prop :=
| l_last : forall seg bl, on_one_line (seg ++ bl) -> ends_visible seg -> ~ ends_in_backslash seg -> invisible bl ->
    seg ++ bl <> [] -> (List.length (seg ++ bl) + 2 <= n)%nat ->
    logical n (seg ++ bl) (seg ++ [" "%char])
| l_backslash : forall seg bl t out, on_one_line (seg ++ bl) -> invisible bl -> (List.length (seg ++ bl) + 3 <= n)%nat ->
    logical n t out ->
    logical n (seg ++ "\"%char :: bl ++ NL :: t) (seg ++ " "%char :: out)
| l_plus : forall seg bl ws t out, on_one_line (seg ++ bl) -> ends_visible seg -> ~ ends_in_backslash seg -> invisible bl ->
    (List.length (seg ++ bl) + 2 <= n)%nat -> spaces ws ->
    logical n t out ->
    logical n (seg ++ bl ++ NL :: ws ++ "+"%char :: t) (seg ++ " "%char :: out).

(* the text after a logical line does not continue it *)
Definition next_line (t : list ascii) : Prop := match t with c :: _ => isspace c = false /\ c <> "+"%char | [] => True end.

Inductive file_of (n : nat) : list ascii -> list (list ascii) -> Prop :=
| f_empty : file_of n [] []
| f_unterminated : forall t out, logical n t out -> file_of n t [out]
| f_line : forall t out ws rest outs, logical n t out -> spaces ws -> next_line rest -> file_of n rest outs ->
    file_of n (t ++ NL :: ws ++ rest) (out :: outs).

Lemma fgets_line : forall l r k, ~ In NL l -> (List.length l < k)%nat -> fgets_loop k (l ++ NL :: r) = (l ++ [NL], r).
Proof.
  induction l as [|c l IH]; intros r k H Hk; (destruct k as [|k]; [cbn in Hk; lia|]); cbn [app fgets_loop].
  - reflexivity.
  - destruct (Ascii.eqb_spec c NL) as [->|N]; [exfalso; apply H; now left|]. rewrite IH; [reflexivity|intros X; apply H; now right|cbn in Hk; lia].
Qed.
Lemma fgets_end : forall l k, ~ In NL l -> (List.length l <= k)%nat -> fgets_loop k l = (l, []).
Proof.
  induction l as [|c l IH]; intros k H Hk; [destruct k; reflexivity|]. destruct k as [|k]; [cbn in Hk; lia|]. cbn [fgets_loop].
  destruct (Ascii.eqb_spec c NL) as [->|N]; [exfalso; apply H; now left|]. rewrite IH; [reflexivity|intros X; apply H; now right|cbn in Hk; lia].
Qed.
Lemma trimmed : forall seg pad, no_nul (seg ++ pad) -> ends_visible seg -> invisible pad ->
  (let* b := trim ((seg ++ pad) ++ [NUL]) in c_str b) = Some seg.
Proof.
  intros seg pad H Hs Hp. destruct (C18_trim (seg ++ pad) [] H) as (k & p & E & Hp' & Hk & _ & Hc).
  assert (X : seg = k /\ pad = p) by (apply ends_unique; assumption). destruct X as [<- <-]. exact Hc.
Qed.
Lemma no_backslash : forall l, ~ ends_in_backslash l -> ends_backslash l = false.
Proof.
  intros l H. unfold ends_backslash. destruct (rev l) as [|c q] eqn:E; [reflexivity|]. destruct (Ascii.eqb_spec c "\") as [->|N]; [|reflexivity].
  exfalso. apply H. exists (rev q). rewrite <- (rev_involutive l), E. reflexivity.
Qed.
Lemma space_skip : forall ws t, spaces ws -> skip_space (ws ++ t) = skip_space t.
Proof. intros ws t H. induction H as [|c ws Hc _ IH]; cbn; [reflexivity|]. now rewrite Hc. Qed.
Lemma space_next : forall t, next_line t -> skip_space t = t.
Proof. intros [|c t] H; [reflexivity|]. cbn. now rewrite (proj1 H). Qed.
Lemma vis_add : forall bl, invisible bl -> invisible (bl ++ [NL]).
Proof. intros bl H. apply Forall_app. split; [assumption|]. repeat constructor. Qed.
Lemma no_nul_nl : forall l, on_one_line l -> no_nul (l ++ [NL]).
Proof. intros l [H _] X. apply in_app_or in X. destruct X as [X|[X|[]]]; [now apply H|discriminate X]. Qed.

(* one call of getlines *)
Lemma getlines_logical : forall n t out, logical n t out -> forall fuel s rest,
  (List.length t < fuel)%nat -> (rest = [] \/ exists ws rest', rest = NL :: ws ++ rest' /\ spaces ws /\ next_line rest') ->
  exists rest', getlines_loop fuel n s (t ++ rest) = Some (Line (s ++ out) rest') /\
    (rest = [] -> rest' = []) /\ (forall ws r, rest = NL :: ws ++ r -> spaces ws -> next_line r -> rest' = r).
Proof.
  intros n t out H. induction H as [seg bl H1 Hv Hb Hi Hne Hl|seg bl t out H1 Hi Hl _ IH|seg bl ws t out H1 Hv Hb Hi Hl Hw _ IH]; intros fuel s rest Hf Hr.
  - destruct fuel as [|fuel]; [lia|]. cbn [getlines_loop].
    destruct Hr as [->|(ws & r & -> & Hw & Hn)].
    + rewrite app_nil_r. unfold fgets. replace (fgets_loop (n - 1) (seg ++ bl)) with (seg ++ bl, @nil ascii) by (symmetry; apply fgets_end; [apply H1|lia]).
      destruct (seg ++ bl) as [|c q] eqn:E; [contradiction|]. rewrite <- E in *.
      pose proof (trimmed seg bl (proj1 H1) Hv Hi) as T. destruct (trim ((seg ++ bl) ++ [NUL])) as [b|]; [|discriminate T]. cbn [bind] in *. rewrite T. cbn [bind].
      rewrite no_backslash by assumption. cbn [skip_space]. exists []. split; [reflexivity|]. split; [reflexivity|intros ? ? X; discriminate X].
    + unfold fgets. replace (fgets_loop (n - 1) ((seg ++ bl) ++ NL :: ws ++ r)) with ((seg ++ bl) ++ [NL], ws ++ r) by (symmetry; apply fgets_line; [apply H1|lia]).
      destruct ((seg ++ bl) ++ NL :: ws ++ r) as [|c q] eqn:E; [destruct (seg ++ bl); discriminate E|].
      pose proof (trimmed seg (bl ++ [NL]) ltac:(rewrite app_assoc; now apply no_nul_nl) Hv (vis_add _ Hi)) as T.
      rewrite app_assoc in T. destruct (trim (((seg ++ bl) ++ [NL]) ++ [NUL])) as [b|]; [|discriminate T]. cbn [bind] in *. rewrite T. cbn [bind].
      rewrite no_backslash, space_skip, space_next by assumption.
      exists r. split; [|split; [discriminate|]].
      * destruct r as [|c' r]; [reflexivity|]. destruct Hn as [_ Hn].
        destruct c' as [[] [] [] [] [] [] [] []]; try reflexivity. now elim Hn.
      * intros ws' r' E' Hw' Hn'. injection E' as E'. pose proof (space_skip _ r Hw) as A. rewrite E', space_skip, !space_next in A by assumption. exact (eq_sym A).
  - destruct fuel as [|fuel]; [lia|]. cbn [getlines_loop]. unfold fgets.
    replace ((seg ++ "\"%char :: bl ++ NL :: t) ++ rest) with ((seg ++ "\"%char :: bl) ++ NL :: (t ++ rest)) by (rewrite <- !app_assoc; cbn; now rewrite <- app_assoc).
    destruct H1 as [N1 N2].
    replace (fgets_loop (n - 1) ((seg ++ "\"%char :: bl) ++ NL :: t ++ rest)) with ((seg ++ "\"%char :: bl) ++ [NL], t ++ rest).
    2:{ symmetry; apply fgets_line.
        - intros X. apply N2. apply in_or_app. apply in_app_or in X. destruct X as [X|[X|X]]; [now left|discriminate X|now right].
        - rewrite !app_length in *. cbn in *. lia. }
    destruct ((seg ++ "\"%char :: bl) ++ NL :: t ++ rest) as [|c q] eqn:E; [destruct seg; discriminate E|]. clear c q E.
    pose proof (trimmed (seg ++ ["\"%char]) (bl ++ [NL])) as T.
    replace ((seg ++ ["\"%char]) ++ bl ++ [NL]) with ((seg ++ "\"%char :: bl) ++ [NL]) in T by (rewrite <- !app_assoc; reflexivity).
    assert (A1 : no_nul ((seg ++ "\"%char :: bl) ++ [NL])).
    { intros X. apply N1. apply in_or_app. apply in_app_or in X. destruct X as [X|[X|[]]]; [|discriminate X].
      apply in_app_or in X. destruct X as [X|[X|X]]; [now left|discriminate X|now right]. }
    assert (A2 : ends_visible (seg ++ ["\"%char])) by (right; exists seg, "\"%char; split; reflexivity).
    specialize (T A1 A2 (vis_add _ Hi)).
    destruct (trim (((seg ++ "\"%char :: bl) ++ [NL]) ++ [NUL])) as [b|]; [|discriminate T]. cbn [bind] in *. rewrite T. cbn [bind].
    unfold ends_backslash. rewrite rev_app_distr. cbn [rev app]. rewrite Ascii.eqb_refl, removelast_last.
    destruct (IH fuel (s ++ seg ++ [" "%char]) rest) as (r' & Er & P); [rewrite app_length in Hf; cbn in Hf; rewrite app_length in Hf; cbn in Hf; lia|assumption|].
    exists r'. split; [|exact P]. rewrite Er. do 2 f_equal. rewrite <- !app_assoc. reflexivity.
  - destruct fuel as [|fuel]; [lia|]. cbn [getlines_loop]. unfold fgets.
    replace ((seg ++ bl ++ NL :: ws ++ "+"%char :: t) ++ rest) with ((seg ++ bl) ++ NL :: (ws ++ "+"%char :: t ++ rest))
      by (rewrite <- !app_assoc; cbn; now rewrite <- !app_assoc).
    replace (fgets_loop (n - 1) ((seg ++ bl) ++ NL :: ws ++ "+"%char :: t ++ rest)) with ((seg ++ bl) ++ [NL], ws ++ "+"%char :: t ++ rest)
      by (symmetry; apply fgets_line; [apply H1|lia]).
    destruct ((seg ++ bl) ++ NL :: ws ++ "+"%char :: t ++ rest) as [|c q] eqn:E; [destruct (seg ++ bl); discriminate E|]. clear c q E.
    pose proof (trimmed seg (bl ++ [NL]) ltac:(rewrite app_assoc; now apply no_nul_nl) Hv (vis_add _ Hi)) as T.
    rewrite app_assoc in T. destruct (trim (((seg ++ bl) ++ [NL]) ++ [NUL])) as [b|]; [|discriminate T]. cbn [bind] in *. rewrite T. cbn [bind].
    rewrite no_backslash, space_skip by assumption. change (skip_space ("+"%char :: t ++ rest)) with ("+"%char :: t ++ rest). cbv iota.
    destruct (IH fuel (s ++ seg ++ [" "%char]) rest) as (r' & Er & P); [rewrite !app_length in Hf; cbn in Hf; rewrite app_length in Hf; cbn in Hf; lia|assumption|].
    exists r'. split; [|exact P]. rewrite Er. do 2 f_equal. rewrite <- !app_assoc. reflexivity.
Qed.

Lemma logical_nonempty : forall n t out, logical n t out -> (0 < List.length t)%nat.
Proof.
  intros n t out H. destruct H; rewrite ?app_length; cbn; rewrite ?app_length; cbn; try lia.
  destruct (seg ++ bl) eqn:E; [contradiction|]. rewrite <- app_length, E. cbn. lia.
Qed.

(* reading a file gives its logical lines, in order, and nothing else *)
Theorem C48_read_file : forall n t outs, file_of n t outs -> read_file n t = Some outs.
Proof.
  assert (G : forall n t outs, file_of n t outs -> forall fuel, (List.length t < fuel)%nat -> read_lines fuel n t = Some outs).
  { intros n t outs H. induction H as [|t out H|t out ws rest outs H Hw Hn Hf IH]; intros fuel Hl; (destruct fuel as [|fuel]; [lia|]); cbn [read_lines].
    - reflexivity.
    - unfold getlines. destruct (getlines_logical n t out H (S (List.length t)) [] []) as (r & E & R & _); [lia|now left|].
      rewrite app_nil_r in E. rewrite E. cbn [bind]. rewrite (R eq_refl). destruct fuel as [|fuel]; [pose proof (logical_nonempty _ _ _ H); lia|]. reflexivity.
    - unfold getlines. destruct (getlines_logical n t out H (S (List.length (t ++ NL :: ws ++ rest))) [] (NL :: ws ++ rest)) as (r & E & _ & R).
      + rewrite app_length. lia.
      + right. now exists ws, rest.
      + rewrite E. cbn [bind]. rewrite (R ws rest eq_refl Hw Hn). rewrite IH; [reflexivity|].
        rewrite app_length in Hl. cbn in Hl. rewrite app_length in Hl. lia. }
  intros n t outs H. apply (G n t outs H). lia.
Qed.
Print Assumptions C48_read_file.

Example C48_case : file_of 4096 (str "R1 1 0" ++ NL :: [] ++ str "C1 2 0" ++ str "  " ++ NL :: str " " ++ "+"%char :: str " 1u") [str "R1 1 0 "; str "C1 2 0  1u "].
Proof.
  apply (f_line 4096 (str "R1 1 0") (str "R1 1 0 ") []).
  - apply (l_last 4096 (str "R1 1 0") []).
    + split; intros X; cbn in X; intuition discriminate.
    + right. exists (str "R1 1 "), "0"%char. split; reflexivity.
    + intros [l E]. apply (f_equal (@rev ascii)) in E. rewrite rev_app_distr in E. discriminate E.
    + constructor.
    + discriminate.
    + apply Nat.leb_le. vm_compute. reflexivity.
  - constructor.
  - split; [reflexivity|discriminate].
  - apply f_unterminated. apply (l_plus 4096 (str "C1 2 0") (str "  ") (str " ") (str " 1u") (str " 1u ")).
    + split; intros X; cbn in X; intuition discriminate.
    + right. exists (str "C1 2 "), "0"%char. split; reflexivity.
    + intros [l E]. apply (f_equal (@rev ascii)) in E. rewrite rev_app_distr in E. discriminate E.
    + repeat constructor.
    + apply Nat.leb_le. vm_compute. reflexivity.
    + repeat constructor.
    + apply (l_last 4096 (str " 1u") []).
      * split; intros X; cbn in X; intuition discriminate.
      * right. exists (str " 1"), "u"%char. split; reflexivity.
      * intros [l E]. apply (f_equal (@rev ascii)) in E. rewrite rev_app_distr in E. discriminate E.
      * constructor.
      * discriminate.
      * apply Nat.leb_le. vm_compute. reflexivity.
Qed.

(* a physical line longer than the buffer is cut, and a '+' that falls on the cut is lost *)
Definition long_line : list ascii := str "x=" ++ repeat "1"%char (8 * 512 - 3) ++ str "+5".
Theorem C48_long_line_refuted : exists t l, ~ In NL t /\ In "+"%char t /\ read_file (8 * 512) (t ++ [NL]) = Some [l] /\ ~ In "+"%char l.
Proof.
  assert (E : forall c l, existsb (Ascii.eqb c) l = false -> ~ In c l).
  { intros c l H X. assert (existsb (Ascii.eqb c) l = true) by (apply existsb_exists; exists c; split; [assumption|apply Ascii.eqb_refl]). congruence. }
  exists long_line, (str "x=" ++ repeat "1"%char (8 * 512 - 3) ++ str " 5 "). split; [apply E; vm_compute; reflexivity|].
  split; [apply in_or_app; right; apply in_or_app; right; now left|]. split; [vm_compute; reflexivity|apply E; vm_compute; reflexivity].
Qed.
Print Assumptions C48_long_line_refuted.
