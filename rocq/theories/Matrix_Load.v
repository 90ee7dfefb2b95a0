(* The load interface as a sequence of elementary updates; histories of matrix operations. *)
Require Import ZArith List Lia Bool.
Require Import ZifyBool.
Require Import Verif.Loops Verif.Matrix_Model Verif.Matrix_Layout Verif.Matrix_LU.
Import ListNotations.
Local Open Scope Z_scope.

Section Load.
Variable A : arith.
Notation T := (num A).
Notation data := (data A).
Notation mat := (mat A).
Notation load := (load A).

(* elementary update: subtract if the flag is set, else add *)
Record act := mkact { a_r : Z; a_c : Z; a_sub : bool; a_v : T }.
Definition aput (D : data) (x : act) : data :=
  put D (a_r x) (a_c x) (if a_sub x then nsub A (ent D (a_r x) (a_c x)) (a_v x) else nadd A (ent D (a_r x) (a_c x)) (a_v x)).

Definition act1 (r c : Z) (s : bool) (v : T) : list act :=
  if (0 <? r) && (0 <? c) then [mkact r c s v] else [].
Definition acts (x : load) : list act :=
  match x with
  | LPoint i j v => act1 i j false v
  | LDiag i v => act1 i i false v
  | LCouple i j v => act1 i j true v ++ act1 j i true v
  | LSym i j v => act1 j j false v ++ act1 i i false v ++ act1 i j true v ++ act1 j i true v
  | LAsym r1 r2 c1 c2 v => act1 r1 c1 false v ++ act1 r1 c2 true v ++ act1 r2 c1 true v ++ act1 r2 c2 false v
  end.

Definition pos_env (D : data) (r c : Z) : Prop := 0 < r -> 0 < c -> env D r c.
Definition load_ok (D : data) (x : load) : Prop :=
  match x with
  | LPoint i j _ => pos_env D i j
  | LDiag i _ => i <= size D
  | LCouple i j _ => pos_env D i j
  | LSym i j _ => i <= size D /\ j <= size D /\ pos_env D i j
  | LAsym r1 r2 c1 c2 _ => pos_env D r1 c1 /\ pos_env D r1 c2 /\ pos_env D r2 c1 /\ pos_env D r2 c2
  end.

Lemma aput_shape : forall D x, shape D (aput D x). Proof. intros; apply shape_put. Qed.
Lemma fold_aput_shape : forall l D, shape D (fold_left aput l D).
Proof.
  induction l as [|x l IH]; intros D; [apply shape_refl|]. cbn.
  apply shape_trans with (aput D x); [apply aput_shape|apply IH].
Qed.

Lemma addto_m : forall M r c v, wf (aa M) -> env (aa M) r c ->
  addto A (at_m A r c) v M = Some (mkmat (aput (aa M) (mkact r c false v)) (lu M) (changed M) (min_pivot M)).
Proof. intros M r c v Hw He. unfold addto, at_m, bind. rewrite rd_m, wr_m by assumption. reflexivity. Qed.
Lemma subfrom_m : forall M r c v, wf (aa M) -> env (aa M) r c ->
  subfrom A (at_m A r c) v M = Some (mkmat (aput (aa M) (mkact r c true v)) (lu M) (changed M) (min_pivot M)).
Proof. intros M r c v Hw He. unfold subfrom, at_m, bind. rewrite rd_m, wr_m by assumption. reflexivity. Qed.
Lemma addto_d : forall M r v, wf (aa M) -> 1 <= r <= size (aa M) ->
  addto A (at_d A r) v M = Some (mkmat (aput (aa M) (mkact r r false v)) (lu M) (changed M) (min_pivot M)).
Proof. intros M r v Hw He. unfold addto, at_d, bind. rewrite rd_d, wr_d by assumption. reflexivity. Qed.

Definition loaded (x : load) (M M' : mat) : Prop :=
  aa M' = fold_left aput (acts x) (aa M) /\ lu M' = lu M /\ min_pivot M' = min_pivot M /\
  (forall i, changed M i = true -> changed M' i = true) /\
  (forall a, In a (acts x) -> env (aa M) (a_r a) (a_c a) /\ (changed M' (a_r a) = true \/ changed M' (a_c a) = true)).

Lemma upd_true : forall f a i, f i = true -> upd f a true i = true.
Proof. intros f a i H. unfold upd. now destruct (i =? a). Qed.
Lemma upd_true_same : forall f (a : Z), upd f a true a = true.
Proof. intros. apply upd_same. Qed.

Ltac chg := cbn [changed a_r a_c a_sub a_v set_changed]; first [ assumption | solve [repeat (first [ apply upd_true_same | apply upd_true ]; try assumption)] | solve [left; chg] | solve [right; chg] ].

Ltac triv M := rewrite ?andb_false_r; exists M; split; [reflexivity|]; split; [reflexivity|]; split; [reflexivity|];
  split; [reflexivity|]; split; [intros; assumption|]; intros ? [].
(* the last two parts of [loaded] *)
Ltac fin := eexists; (split; [reflexivity|]);
    cbn [aa lu min_pivot set_changed fold_left]; (split; [reflexivity|]); (split; [reflexivity|]); (split; [reflexivity|]);
    (split; [intros; chg|]);
    let a := fresh "a" in let Ha := fresh "Ha" in
    intros a Ha; cbn [In app andb] in Ha;
    repeat match goal with H : _ \/ _ |- _ => destruct H end; try contradiction; subst a; cbn [a_r a_c];
    (split; [assumption|chg]).

Lemma aput_wf : forall D x, wf D -> wf (aput D x).
Proof. intros D x H. apply (shape_wf A D); [apply aput_shape|assumption]. Qed.
Lemma aput_env : forall D x r c, env D r c -> env (aput D x) r c.
Proof. intros D x r c H. apply (shape_env A D); [apply aput_shape|assumption]. Qed.

Lemma do_load_loaded : forall x M, wf (aa M) -> load_ok (aa M) x ->
  exists M', do_load A x M = Some M' /\ loaded x M M'.
Proof.
  intros x M Hw Hok. destruct x as [i j v|i v|i j v|i j v|r1 r2 c1 c2 v];
    cbn [load_ok] in Hok; unfold do_load, loaded, acts, act1.
  - unfold load_point. destruct (Z.ltb_spec 0 i) as [Hi|Hi]; cbn [andb]; [|triv M].
    destruct (Z.ltb_spec 0 j) as [Hj|Hj]; [|triv M].
    specialize (Hok Hi Hj).
    rewrite addto_m by assumption. fin.
  - unfold load_diagonal_point. destruct (Z.ltb_spec 0 i) as [Hi|Hi]; cbn [andb]; [|triv M].
    assert (He : env (aa M) i i) by (apply env_diag; [assumption|lia]).
    rewrite addto_d by (assumption || (cbn; lia)). fin.
  - unfold load_couple. rewrite (andb_comm (0 <? j)).
    destruct (Z.ltb_spec 0 i) as [Hi|Hi]; cbn [andb]; [|triv M].
    destruct (Z.ltb_spec 0 j) as [Hj|Hj]; [|triv M].
    specialize (Hok Hi Hj). pose proof (in_env_sym _ _ _ _ Hok) as Hok'.
    rewrite subfrom_m by assumption. cbn [bind].
    rewrite subfrom_m; cbn [aa set_changed]; [|now apply aput_wf|now apply aput_env].
    fin.
  - unfold load_symmetric. destruct Hok as (Bi & Bj & Hok).
    destruct (Z.ltb_spec 0 j) as [Hj|Hj].
    + assert (Hjj : env (aa M) j j) by (apply env_diag; [assumption|lia]).
      rewrite addto_d by (assumption || (cbn; lia)). cbn [bind].
      destruct (Z.ltb_spec 0 i) as [Hi|Hi]; cbn [andb app].
      * specialize (Hok Hi Hj). pose proof (in_env_sym _ _ _ _ Hok) as Hok'.
        assert (Hii : env (aa M) i i) by (apply env_diag; [assumption|lia]).
        rewrite addto_d; cbn [aa set_changed]; [|now apply aput_wf|cbn; lia]. cbn [bind].
        rewrite subfrom_m; cbn [aa set_changed]; [|now repeat apply aput_wf|now repeat apply aput_env]. cbn [bind].
        rewrite subfrom_m; cbn [aa set_changed]; [|now repeat apply aput_wf|now repeat apply aput_env].
        fin.
      * fin.
    + cbn [andb app]. destruct (Z.ltb_spec 0 i) as [Hi|Hi]; cbn [andb app].
      * assert (Hii : env (aa M) i i) by (apply env_diag; [assumption|lia]).
        rewrite addto_d by (assumption || (cbn; lia)). fin.
      * triv M.
  - unfold load_asymmetric. destruct Hok as (H11 & H12 & H21 & H22).
    destruct (Z.ltb_spec 0 r1) as [R1|R1]; destruct (Z.ltb_spec 0 c1) as [C1|C1];
    destruct (Z.ltb_spec 0 r2) as [R2|R2]; destruct (Z.ltb_spec 0 c2) as [C2|C2];
    try specialize (H11 R1 C1); try specialize (H12 R1 C2); try specialize (H21 R2 C1); try specialize (H22 R2 C2);
    cbn [andb app fold_left bind];
    repeat (first [ rewrite addto_m | rewrite subfrom_m ]; [cbn [bind set_changed aa lu changed min_pivot] | cbn [bind set_changed aa lu changed min_pivot]; repeat apply aput_wf; assumption | cbn [bind set_changed aa lu changed min_pivot]; repeat apply aput_env; assumption]);
    fin.
Qed.

(* entries not touched by the updates keep their value *)
Lemma fold_aput_other : forall l D r c, wf D -> (forall a, In a l -> env D (a_r a) (a_c a)) -> env D r c ->
  (forall a, In a l -> (a_r a, a_c a) <> (r, c)) -> ent (fold_left aput l D) r c = ent D r c.
Proof.
  induction l as [|x l IH]; intros D r c Hw Hin He Hn; [reflexivity|]. cbn.
  rewrite IH.
  - unfold aput. apply ent_put_other; try assumption; [apply Hin; now left|apply Hn; now left].
  - now apply aput_wf.
  - intros a Ha. apply aput_env. apply Hin. now right.
  - now apply aput_env.
  - intros a Ha. apply Hn. now right.
Qed.

Lemma loaded_mwf : forall x M M', mwf A M -> loaded x M M' -> mwf A M'.
Proof.
  intros x M M' (Hw & Hs) (Ea & El & _). unfold mwf. rewrite Ea, El.
  pose proof (fold_aput_shape (acts x) (aa M)) as (S1 & S2). split.
  - unfold wf. now rewrite S1, S2.
  - destruct Hs. split; congruence.
Qed.

Lemma loaded_sync : forall x M M', mwf A M -> loaded x M M' -> sync A M -> sync A M'.
Proof.
  intros x M M' (Hw & Hs) (Ea & El & Em & Hc & Hin) (src0 & S0 & R0 & C0).
  exists src0. rewrite Ea, El, Em.
  pose proof (fold_aput_shape (acts x) (aa M)) as Sh. split.
  { destruct Sh, S0; split; congruence. }
  split; [assumption|]. intros r c He Fr Fc.
  assert (He' : env (aa M) r c) by now apply (shape_env A (aa M) _ r c Sh).
  assert (Fr' : changed M r = false) by (destruct (changed M r) eqn:E; [apply Hc in E; congruence|reflexivity]).
  assert (Fc' : changed M c = false) by (destruct (changed M c) eqn:E; [apply Hc in E; congruence|reflexivity]).
  rewrite <- (C0 r c He' Fr' Fc').
  apply fold_aput_other; try assumption.
  - intros a Ha. now apply Hin.
  - intros a Ha E. inversion E; subst. destruct (Hin a Ha) as (_ & [H|H]); congruence.
Qed.

(* histories of operations on one matrix *)
Inductive op :=
| OLoad (x : load)       (* any load call, m_matrix.h:706-806 *)
| OZero                  (* zero(), m_matrix.h:559-566 *)
| ODezero (o : T)        (* dezero(), m_matrix.h:570-576 *)
| OPivot (p : T)         (* set_min_pivot(), m_matrix_solver.h:68 *)
| OLU (partial : bool).  (* lu_decomp(do_partial), m_matrix_solver.h:187-229 *)

Definition run1 (o : op) (M : mat) : option mat :=
  match o with
  | OLoad x => do_load A x M
  | OZero => Some (mkmat (zero A (aa M)) (lu M) (changed M) (min_pivot M))
  | ODezero d => let* D := dezero A d (aa M) in Some (mkmat D (lu M) (changed M) (min_pivot M))
  | OPivot p => Some (mkmat (aa M) (lu M) (changed M) p)
  | OLU b => lu_decomp A b M
  end.

(* include/m_matrix.h:412-424, 456-... BSMATRIX::init/iwant/allocate: the solver's copy has the
   same shape, and _changed is cleared (m_matrix_solver.h:176-185) *)
Definition start_mat (s : Z) (ws : list (Z * Z)) (junk : Z -> T) (mp : T) : option mat :=
  let* D := build A s ws in Some (mkmat D (mkdata (size D) (low D) junk) (fun _ => false) mp).

Lemma dezero_spec : forall d D, wf D -> exists D', dezero A d D = Some D' /\ shape D D'
  /\ forall r c, env D r c -> ent D' r c = if r =? c then nadd A (ent D r c) d else ent D r c.
Proof.
  intros d D Hw. unfold dezero.
  destruct (for_up_ind data (fun ii D' => shape D D' /\
      forall r c, env D r c -> ent D' r c = if (r =? c) && (r <? ii) then nadd A (ent D r c) d else ent D r c)
    (fun ii D' => let* x := load_ A D' (addr_d A D' ii) in store_ A D' (addr_d A D' ii) (nadd A x d))
    1 (size D + 1) D) as (D' & E & Sh & V).
  - destruct Hw; lia.
  - split; [apply shape_refl|]. intros r c (H & _). replace (r <? 1) with false by lia. now rewrite andb_false_r.
  - intros ii Di Hi (Sh & V). assert (Hwi : wf Di) by now apply (shape_wf A D).
    assert (size Di = size D) by apply Sh.
    unfold bind. rewrite rd_d by (assumption || lia). rewrite wr_d by (assumption || lia).
    eexists. split; [reflexivity|]. split; [now apply shape_trans with Di|].
    intros r c He. assert (Hei : env Di r c) by now apply (shape_env A D).
    assert (Hd : env Di ii ii) by (apply env_diag; [assumption|lia]).
    destruct (Z.eq_dec r ii) as [->|N].
    + destruct (Z.eq_dec c ii) as [->|N'].
      * rewrite ent_put. rewrite V by (apply env_diag; [assumption|lia]).
        rewrite Z.eqb_refl. replace (ii <? ii) with false by lia. replace (ii <? ii + 1) with true by lia. reflexivity.
      * rewrite ent_put_other; try assumption; [|congruence]. rewrite V by assumption.
        replace (ii =? c) with false by lia. reflexivity.
    + rewrite ent_put_other; try assumption; [|congruence]. rewrite V by assumption.
      replace (r <? ii + 1) with (r <? ii) by lia. reflexivity.
  - exists D'. split; [assumption|]. split; [assumption|]. intros r c He. rewrite V by assumption.
    destruct He as (He & _). replace (r <? size D + 1) with true by lia. now rewrite andb_true_r.
Qed.

(* protocol: a partial decomposition is not asked for while the stored factors are stale for a
   reason the marks do not record.  true = stale *)
Fixpoint proto (stale : bool) (l : list op) : Prop :=
  match l with
  | [] => True
  | OLoad _ :: l' => proto stale l'
  | OLU false :: l' => proto false l'
  | OLU true :: l' => stale = false /\ proto false l'
  | _ :: l' => proto true l'
  end.
Fixpoint stale_after (stale : bool) (l : list op) : bool :=
  match l with
  | [] => stale
  | OLoad _ :: l' => stale_after stale l'
  | OLU _ :: l' => stale_after false l'
  | _ :: l' => stale_after true l'
  end.

Definition ops_ok (D : data) (l : list op) : Prop := forall x, In (OLoad x) l -> load_ok D x.

Lemma load_ok_shape : forall D D' x, shape D D' -> load_ok D x -> load_ok D' x.
Proof.
  intros D D' x S. destruct x; cbn [load_ok]; unfold pos_env;
  repeat rewrite (shape_env A D D' _ _ S); destruct S as (Es & _); try rewrite Es; tauto.
Qed.

Lemma run_inv : forall l M st, mwf A M -> ops_ok (aa M) l -> proto st l -> (st = false -> sync A M) ->
  exists M', foldM run1 l M = Some M' /\ mwf A M' /\ shape (aa M) (aa M') /\
    (stale_after st l = false -> sync A M').
Proof.
  induction l as [|o l IH]; intros M st Hm Hok Hp Hs.
  - exists M. repeat split; try apply Hm; assumption.
  - assert (Hok' : forall M1, shape (aa M) (aa M1) -> ops_ok (aa M1) l).
    { intros M1 S x Hx. apply load_ok_shape with (aa M); [assumption|]. apply Hok. now right. }
    assert (Step : exists M1 st1, run1 o M = Some M1 /\ mwf A M1 /\ shape (aa M) (aa M1) /\ proto st1 l /\
              (st1 = false -> sync A M1) /\ stale_after st (o :: l) = stale_after st1 l).
    { destruct o as [x| |d|p|b]; cbn [run1].
      - destruct (do_load_loaded x M (proj1 Hm) (Hok x (or_introl eq_refl))) as (M1 & E & HL).
        exists M1, st. split; [assumption|]. split; [now apply loaded_mwf with x M|].
        split; [destruct HL as (-> & _); apply fold_aput_shape|]. split; [assumption|].
        split; [|reflexivity]. intros Hst. apply loaded_sync with x M; auto.
      - eexists _, true. split; [reflexivity|]. split; [|split; [now split|split; [assumption|split; [discriminate|reflexivity]]]].
        destruct Hm as (Hw & Hsh). split; [|destruct Hsh; now split]. exact Hw.
      - destruct (dezero_spec d (aa M) (proj1 Hm)) as (D' & E & Sh & _). rewrite E. cbn [bind].
        eexists _, true. split; [reflexivity|].
        split; [|split; [assumption|split; [assumption|split; [discriminate|reflexivity]]]].
        destruct Hm as (Hw & Hsh). split; [now apply (shape_wf A (aa M))|]. cbn. destruct Hsh, Sh; split; congruence.
      - eexists _, true. split; [reflexivity|]. split; [exact Hm|].
        split; [apply shape_refl|]. split; [assumption|split; [discriminate|reflexivity]].
      - destruct (lu_decomp_spec A b M Hm) as (M1 & E & Ea & Em & Hm1 & HL & Hsy).
        { intros ->. cbn in Hp. apply Hs. apply Hp. }
        exists M1, false. split; [assumption|]. split; [assumption|]. split; [rewrite Ea; apply shape_refl|].
        split; [destruct b; cbn in Hp; [apply Hp|assumption]|]. split; [now intros _|reflexivity]. }
    destruct Step as (M1 & st1 & E & Hm1 & S1 & Hp1 & Hs1 & Est).
    destruct (IH M1 st1 Hm1 (Hok' M1 S1) Hp1 Hs1) as (M' & E' & Hm' & S' & Hs').
    exists M'. cbn [foldM]. rewrite E. cbn [bind]. split; [assumption|]. split; [assumption|].
    split; [now apply shape_trans with (aa M1)|]. intros H. rewrite Est in H. auto.
Qed.
End Load.
