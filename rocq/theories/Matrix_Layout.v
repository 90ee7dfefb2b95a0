(* Layout lemmas for the sparse matrix: envelope, addresses, read/write laws. *)
Require Import ZArith List Lia Bool.
Require Import ZifyBool.
Require Import Verif.Loops Verif.Matrix_Model.
Import ListNotations.
Local Open Scope Z_scope.

(* every stored row/column starts at a non-ground node not beyond the diagonal *)
Definition wf_low (s : Z) (lo : Z -> Z) : Prop :=
  0 <= s /\ lo 0 = 0 /\ forall i, 1 <= i <= s -> 1 <= lo i <= i.

(* (r,c) is inside the envelope *)
Definition in_env (s : Z) (lo : Z -> Z) (r c : Z) : Prop :=
  1 <= r <= s /\ 1 <= c <= s /\ lo (Z.max r c) <= Z.min r c.

Lemma init_wf : forall s, 0 <= s -> wf_low s (init_low s).
Proof. intros s H. unfold init_low. split; [lia|]. split; [reflexivity|]. intros; lia. Qed.

Lemma iwant_step : forall s w lo lo', wf_low s lo -> iwant_low s w lo = Some lo' ->
  wf_low s lo' /\ (forall i, lo' i <= lo i) /\
  (1 <= fst w -> 1 <= snd w -> in_env s lo' (fst w) (snd w)).
Proof.
  intros s (n1, n2) lo lo' (Hs & H0 & Hw) E. cbn [fst snd].
  unfold iwant_low in E.
  destruct (Z.leb_spec n1 s) as [L1|L1]; [|discriminate].
  destruct (Z.leb_spec n2 s) as [L2|L2]; [|discriminate].
  cbn [andb] in E.
  destruct (Z.leb_spec n1 0) as [G1|G1]; cbn [orb] in E.
  { inversion E; subst lo'. repeat split; try assumption; try lia; apply Hw; assumption. }
  destruct (Z.leb_spec n2 0) as [G2|G2].
  { inversion E; subst lo'. repeat split; try assumption; try lia; apply Hw; assumption. }
  pose proof (Hw n1 ltac:(lia)) as W1. pose proof (Hw n2 ltac:(lia)) as W2.
  destruct (Z.ltb_spec n1 (lo n2)) as [C1|C1].
  { inversion E; subst lo'. split; [|split].
    - split; [assumption|]. split.
      + rewrite upd_other by lia. assumption.
      + intros i Hi. unfold upd. destruct (Z.eqb_spec i n2); [subst; lia|apply Hw; assumption].
    - intros i. unfold upd. destruct (Z.eqb_spec i n2); [subst; lia|lia].
    - intros _ _. repeat split; try lia.
      replace (Z.max n1 n2) with n2 by lia. rewrite upd_same. lia. }
  destruct (Z.ltb_spec n2 (lo n1)) as [C2|C2].
  { inversion E; subst lo'. split; [|split].
    - split; [assumption|]. split.
      + rewrite upd_other by lia. assumption.
      + intros i Hi. unfold upd. destruct (Z.eqb_spec i n1); [subst; lia|apply Hw; assumption].
    - intros i. unfold upd. destruct (Z.eqb_spec i n1); [subst; lia|lia].
    - intros _ _. repeat split; try lia.
      replace (Z.max n1 n2) with n1 by lia. rewrite upd_same. lia. }
  inversion E; subst lo'. split; [|split].
  - split; [assumption|]. split; assumption.
  - intros; lia.
  - intros _ _. repeat split; try lia.
    destruct (Z_le_gt_dec n1 n2).
    + replace (Z.max n1 n2) with n2 by lia. lia.
    + replace (Z.max n1 n2) with n1 by lia. lia.
Qed.

Lemma iwant_defined : forall s w lo, fst w <= s -> snd w <= s -> exists lo', iwant_low s w lo = Some lo'.
Proof.
  intros s (n1, n2) lo H1 H2. cbn in *. unfold iwant_low.
  destruct (Z.leb_spec n1 s); [|lia]. destruct (Z.leb_spec n2 s); [|lia]. cbn [andb].
  repeat match goal with |- context [if ?b then _ else _] => destruct b end; eexists; reflexivity.
Qed.

Lemma in_env_mono : forall s lo lo' r c, (forall i, lo' i <= lo i) -> in_env s lo r c -> in_env s lo' r c.
Proof. intros s lo lo' r c H (A & B & C). repeat split; try lia. specialize (H (Z.max r c)). lia. Qed.

Lemma in_env_sym : forall s lo r c, in_env s lo r c -> in_env s lo c r.
Proof. intros s lo r c (A & B & C). repeat split; try lia. rewrite Z.max_comm, Z.min_comm. lia. Qed.

Lemma iwants_all : forall s ws, 0 <= s -> (forall w, In w ws -> fst w <= s /\ snd w <= s) ->
  exists lo, foldM (iwant_low s) ws (init_low s) = Some lo /\ wf_low s lo /\
    (forall w, In w ws -> 1 <= fst w -> 1 <= snd w -> in_env s lo (fst w) (snd w)).
Proof.
  intros s ws Hs Hin.
  destruct (foldM_ind _ _ (fun done lo => wf_low s lo /\
      (forall w, In w done -> 1 <= fst w -> 1 <= snd w -> in_env s lo (fst w) (snd w)))
      (iwant_low s) ws (init_low s)) as (lo & E & HP).
  - split; [now apply init_wf|]. intros w [].
  - intros done w lo Hw (Hwf & Hd).
    destruct (Hin w Hw) as (B1 & B2).
    destruct (iwant_defined s w lo B1 B2) as (lo' & E).
    exists lo'. split; [assumption|].
    destruct (iwant_step s w lo lo' Hwf E) as (Hwf' & Hmono & Henv).
    split; [assumption|].
    intros w' Hw' P1 P2. apply in_app_or in Hw'. destruct Hw' as [Hw'|[Hw'|[]]].
    + apply in_env_mono with lo; [assumption|]. now apply Hd.
    + subst w'. now apply Henv.
  - exists lo. now split.
Qed.

(* the address of an entry *)
Definition ea (lo : Z -> Z) (r c : Z) : Z := diaptr lo (Z.max r c) + (r - c).

Lemma blk_pos : forall s lo i, wf_low s lo -> 0 <= i <= s -> 1 <= blk lo i.
Proof.
  intros s lo i (Hs & H0 & Hw) Hi. unfold blk.
  destruct (Z.eq_dec i 0) as [->|N]; [lia|]. specialize (Hw i ltac:(lia)). lia.
Qed.

Lemma start_next : forall lo i, 0 <= i -> start lo (i + 1) = start lo i + blk lo i.
Proof. intros lo i H. unfold start. rewrite zsum_snoc by lia. reflexivity. Qed.

Lemma start_mono : forall s lo i j, wf_low s lo -> 0 <= i <= j -> j <= s + 1 -> start lo i <= start lo j.
Proof.
  intros s lo i j Hw Hij Hj. unfold start. apply zsum_mono; [lia|].
  intros k Hk. pose proof (blk_pos s lo k Hw ltac:(lia)). lia.
Qed.

Lemma ea_block : forall s lo r c, wf_low s lo -> in_env s lo r c ->
  start lo (Z.max r c) <= ea lo r c < start lo (Z.max r c + 1).
Proof.
  intros s lo r c Hw (Hr & Hc & He). rewrite start_next by lia.
  unfold ea, diaptr, blk. destruct Hw as (_ & _ & Hw). specialize (Hw (Z.max r c) ltac:(lia)). lia.
Qed.

Lemma ea_range : forall s lo r c, wf_low s lo -> in_env s lo r c ->
  0 < ea lo r c < nzcount s lo.
Proof.
  intros s lo r c Hw He. pose proof (ea_block s lo r c Hw He) as B.
  destruct He as (Hr & Hc & He).
  assert (S1 : start lo 1 = 1).
  { change 1 with (0 + 1) at 1. rewrite start_next by lia. unfold start. rewrite zsum_empty by lia.
    unfold blk. destruct Hw as (_ & -> & _). lia. }
  pose proof (start_mono s lo 1 (Z.max r c) Hw ltac:(lia) ltac:(lia)).
  pose proof (start_mono s lo (Z.max r c + 1) (s + 1) Hw ltac:(lia) ltac:(lia)).
  unfold nzcount. unfold start in *. lia.
Qed.

Lemma ea_inj : forall s lo r c r' c', wf_low s lo -> in_env s lo r c -> in_env s lo r' c' ->
  ea lo r c = ea lo r' c' -> r = r' /\ c = c'.
Proof.
  intros s lo r c r' c' Hw He He' E.
  pose proof (ea_block s lo r c Hw He) as B. pose proof (ea_block s lo r' c' Hw He') as B'.
  destruct He as (Hr & Hc & He). destruct He' as (Hr' & Hc' & He').
  assert (M : Z.max r c = Z.max r' c').
  { destruct (Z.lt_trichotomy (Z.max r c) (Z.max r' c')) as [L|[L|L]]; [|assumption|].
    - pose proof (start_mono s lo (Z.max r c + 1) (Z.max r' c') Hw ltac:(lia) ltac:(lia)). lia.
    - pose proof (start_mono s lo (Z.max r' c' + 1) (Z.max r c) Hw ltac:(lia) ltac:(lia)). lia. }
  unfold ea in E. rewrite M in E. lia.
Qed.

(* every cell belongs to some entry *)
Lemma ea_surj : forall s lo a, wf_low s lo -> 0 < a < nzcount s lo ->
  exists r c, in_env s lo r c /\ ea lo r c = a.
Proof.
  intros s lo a Hw Ha.
  assert (Hblk : exists i, 1 <= i <= s /\ start lo i <= a < start lo (i + 1)).
  { destruct Hw as (Hs & H0 & Hw'). assert (Hw : wf_low s lo) by (split; [|split]; assumption).
    assert (S1 : start lo 1 = 1).
    { change 1 with (0 + 1) at 1. rewrite start_next by lia. unfold start. rewrite zsum_empty by lia.
      unfold blk. rewrite H0. lia. }
    assert (G : forall k, 1 <= k <= s + 1 -> a < start lo k -> exists i, 1 <= i <= s /\ start lo i <= a < start lo (i+1)).
    { intros k Hk.
      apply (Z_range_ind (fun k => a < start lo k -> exists i, 1 <= i <= s /\ start lo i <= a < start lo (i+1)) 1 k); [lia|lia|].
      intros i Hi IH Hlt. destruct (Z_lt_le_dec a (start lo i)) as [L|L]; [now apply IH|].
      exists i. lia. }
    apply (G (s + 1)); [lia|]. unfold nzcount in Ha. unfold start. lia. }
  destruct Hblk as (i & Hi & Hs1). rewrite start_next in Hs1 by lia. unfold blk in Hs1.
  pose proof (proj2 (proj2 Hw) i Hi) as Hl.
  set (o := a - diaptr lo i).
  destruct (Z_le_gt_dec o 0) as [L|L].
  - exists (i + o), i. unfold o, diaptr in *. split.
    + repeat split; try lia. replace (Z.max _ i) with i by lia. lia.
    + unfold ea. replace (Z.max _ i) with i by lia. unfold diaptr. lia.
  - exists i, (i - o). unfold o, diaptr in *. split.
    + repeat split; try lia. replace (Z.max i _) with i by lia. lia.
    + unfold ea. replace (Z.max i _) with i by lia. unfold diaptr. lia.
Qed.

Section Laws.
Variable A : arith.
Notation T := (num A).
Notation data := (data A).

Definition wf (D : data) : Prop := wf_low (size D) (low D).
Definition env (D : data) (r c : Z) : Prop := in_env (size D) (low D) r c.
(* value of an in-envelope entry *)
Definition ent (D : data) (r c : Z) : T := cells D (ea (low D) r c).
Definition put (D : data) (r c : Z) (v : T) : data :=
  mkdata (size D) (low D) (upd (cells D) (ea (low D) r c) v).
Definition shape (D D' : data) : Prop := size D' = size D /\ low D' = low D.

Lemma shape_refl : forall D, shape D D. Proof. intros; now split. Qed.
Lemma shape_trans : forall D E F, shape D E -> shape E F -> shape D F.
Proof. intros D E F (a & b) (c & d). split; congruence. Qed.
Lemma shape_wf : forall D E, shape D E -> wf D -> wf E.
Proof. intros D E (a & b) H. unfold wf. now rewrite a, b. Qed.
Lemma shape_env : forall D E r c, shape D E -> (env E r c <-> env D r c).
Proof. intros D E r c (a & b). unfold env. now rewrite a, b. Qed.

Lemma shape_put : forall D r c v, shape D (put D r c v). Proof. intros; now split. Qed.

Lemma ent_put : forall D r c v, ent (put D r c v) r c = v.
Proof. intros. unfold ent, put; cbn. apply upd_same. Qed.
Lemma ent_put_other : forall D r c v r' c', wf D -> env D r c -> env D r' c' ->
  (r, c) <> (r', c') -> ent (put D r c v) r' c' = ent D r' c'.
Proof.
  intros D r c v r' c' Hw H H' N. unfold ent, put; cbn. apply upd_other. intros E.
  destruct (ea_inj _ _ _ _ _ _ Hw H' H E) as (-> & ->). now apply N.
Qed.

Lemma load_ent : forall D r c, wf D -> env D r c -> load_ A D (Some (ea (low D) r c)) = Some (ent D r c).
Proof.
  intros D r c Hw He. unfold load_, bind. pose proof (ea_range _ _ _ _ Hw He).
  replace ((0 <=? ea (low D) r c) && (ea (low D) r c <? nzcount (size D) (low D))) with true by lia.
  reflexivity.
Qed.
Lemma store_ent : forall D r c v, wf D -> env D r c -> store_ A D (Some (ea (low D) r c)) v = Some (put D r c v).
Proof.
  intros D r c v Hw He. unfold store_, bind. pose proof (ea_range _ _ _ _ Hw He).
  replace ((0 <=? ea (low D) r c) && (ea (low D) r c <? nzcount (size D) (low D))) with true by lia.
  reflexivity.
Qed.

Lemma addr_d_env : forall D r, wf D -> 1 <= r <= size D -> addr_d A D r = Some (ea (low D) r r) /\ env D r r.
Proof.
  intros D r Hw H. split.
  - unfold addr_d, ea. replace ((0 <=? r) && (r <=? size D)) with true by lia.
    f_equal. rewrite Z.max_id. lia.
  - repeat split; try lia. rewrite Z.max_id, Z.min_id. destruct Hw as (_ & _ & Hw). now apply Hw.
Qed.
Lemma addr_u_env : forall D r c, wf D -> env D r c -> r <= c -> addr_u A D r c = Some (ea (low D) r c).
Proof.
  intros D r c (Hs & H0 & Hw) (Hr & Hc & He) L. specialize (Hw c Hc).
  rewrite Z.max_r, Z.min_l in He by lia.
  unfold addr_u, ea. rewrite Z.max_r by lia.
  replace ((0 <=? r) && (r <=? c) && (c <=? size D) && (1 <=? low D c) && (low D c <=? r)) with true by lia.
  reflexivity.
Qed.
Lemma addr_l_env : forall D r c, wf D -> env D r c -> c < r -> addr_l A D r c = Some (ea (low D) r c).
Proof.
  intros D r c (Hs & H0 & Hw) (Hr & Hc & He) L. specialize (Hw r Hr).
  rewrite Z.max_l, Z.min_r in He by lia.
  unfold addr_l, ea. rewrite Z.max_l by lia.
  replace ((0 <? c) && (c <? r) && (r <=? size D) && (1 <=? low D r) && (low D r <=? c)) with true by lia.
  reflexivity.
Qed.
Lemma addr_m_env : forall D r c, wf D -> env D r c -> addr_m A D r c = Some (ea (low D) r c).
Proof.
  intros D r c (Hs & H0 & Hw) (Hr & Hc & He). pose proof (Hw r Hr). pose proof (Hw c Hc).
  unfold addr_m, ea.
  assert (low D r <= c /\ low D c <= r).
  { destruct (Z_le_gt_dec r c).
    - rewrite Z.max_r, Z.min_l in He by lia. lia.
    - rewrite Z.max_l, Z.min_r in He by lia. lia. }
  replace ((0 <? r) && (r <=? size D) && (1 <=? low D r) && (low D r <=? c) && (0 <? c) && (c <=? size D)
           && (1 <=? low D c) && (low D c <=? r)) with true by lia.
  destruct (Z.leb_spec r c); [rewrite Z.max_r by lia|rewrite Z.max_l by lia]; reflexivity.
Qed.

Lemma env_diag : forall D r, wf D -> 1 <= r <= size D -> env D r r.
Proof. intros D r Hw H. now apply addr_d_env. Qed.

Lemma rd_d : forall D r, wf D -> 1 <= r <= size D -> load_ A D (addr_d A D r) = Some (ent D r r).
Proof. intros D r Hw H. destruct (addr_d_env D r Hw H) as (-> & He). now apply load_ent. Qed.
Lemma rd_u : forall D r c, wf D -> env D r c -> r <= c -> load_ A D (addr_u A D r c) = Some (ent D r c).
Proof. intros D r c Hw He L. rewrite addr_u_env by assumption. now apply load_ent. Qed.
Lemma rd_l : forall D r c, wf D -> env D r c -> c < r -> load_ A D (addr_l A D r c) = Some (ent D r c).
Proof. intros D r c Hw He L. rewrite addr_l_env by assumption. now apply load_ent. Qed.
Lemma rd_m : forall D r c, wf D -> env D r c -> load_ A D (addr_m A D r c) = Some (ent D r c).
Proof. intros D r c Hw He. rewrite addr_m_env by assumption. now apply load_ent. Qed.
Lemma wr_d : forall D r v, wf D -> 1 <= r <= size D -> store_ A D (addr_d A D r) v = Some (put D r r v).
Proof. intros D r v Hw H. destruct (addr_d_env D r Hw H) as (-> & He). now apply store_ent. Qed.
Lemma wr_u : forall D r c v, wf D -> env D r c -> r <= c -> store_ A D (addr_u A D r c) v = Some (put D r c v).
Proof. intros D r c v Hw He L. rewrite addr_u_env by assumption. now apply store_ent. Qed.
Lemma wr_l : forall D r c v, wf D -> env D r c -> c < r -> store_ A D (addr_l A D r c) v = Some (put D r c v).
Proof. intros D r c v Hw He L. rewrite addr_l_env by assumption. now apply store_ent. Qed.
Lemma wr_m : forall D r c v, wf D -> env D r c -> store_ A D (addr_m A D r c) v = Some (put D r c v).
Proof. intros D r c v Hw He. rewrite addr_m_env by assumption. now apply store_ent. Qed.

(* decidable envelope membership and zero-extended reading *)
Definition env_b (D : data) (r c : Z) : bool :=
  (1 <=? r) && (r <=? size D) && (1 <=? c) && (c <=? size D) && (low D (Z.max r c) <=? Z.min r c).
Lemma env_b_spec : forall D r c, env_b D r c = true <-> env D r c.
Proof. intros. unfold env_b, env, in_env. lia. Qed.
Definition ext (D : data) (r c : Z) : T := if env_b D r c then ent D r c else n0 A.

Lemma ext_env : forall D r c, env D r c -> ext D r c = ent D r c.
Proof. intros D r c H. unfold ext. apply env_b_spec in H. now rewrite H. Qed.
Lemma ext_out : forall D r c, ~ env D r c -> ext D r c = n0 A.
Proof. intros D r c H. unfold ext. destruct (env_b D r c) eqn:E; [|reflexivity]. apply env_b_spec in E. contradiction. Qed.

Lemma read_s_ext : forall D r c, wf D -> 1 <= r <= size D -> 1 <= c <= size D ->
  read_s A D r c = Some (ext D r c).
Proof.
  intros D r c Hw Hr Hc. unfold read_s.
  replace ((0 <=? c) && (c <=? size D) && (0 <=? r) && (r <=? size D)) with true by lia.
  destruct (Z.eqb_spec c r) as [->|N].
  - rewrite rd_d by assumption. now rewrite ext_env by (now apply env_diag).
  - destruct (Z.ltb_spec r c) as [L|L].
    + replace (r =? 0) with false by lia.
      destruct (Z.ltb_spec r (low D c)) as [O|O].
      * rewrite ext_out; [reflexivity|]. intros (_ & _ & H). rewrite Z.max_r, Z.min_l in H by lia. lia.
      * assert (E : env D r c). { repeat split; try lia. rewrite Z.max_r, Z.min_l by lia. lia. }
        rewrite rd_u by (assumption || lia). now rewrite ext_env.
    + replace (c =? 0) with false by lia.
      destruct (Z.ltb_spec c (low D r)) as [O|O].
      * rewrite ext_out; [reflexivity|]. intros (_ & _ & H). rewrite Z.max_l, Z.min_r in H by lia. lia.
      * assert (E : env D r c). { repeat split; try lia. rewrite Z.max_l, Z.min_r by lia. lia. }
        rewrite rd_l by (assumption || lia). now rewrite ext_env.
Qed.
End Laws.
Arguments wf {A}. Arguments env {A}. Arguments ent {A}. Arguments put {A}. Arguments shape {A}. Arguments ext {A}. Arguments env_b {A}.
