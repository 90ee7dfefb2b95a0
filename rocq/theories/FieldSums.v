(* Exact fields (a bundle of operations together with their laws, instantiated at Qc in the
   examples) and finite sums in them.  Not a transcription of any file. *)
Require Import ZArith List Lia Bool Field QArith Qcanon.
Require Import ZifyBool.
Require Import Verif.Loops.
Import ListNotations.
Local Open Scope Z_scope.

Record fld := mkfld {
  F : Type; f0 : F; f1 : F;
  fadd : F -> F -> F; fmul : F -> F -> F; fsub : F -> F -> F; fopp : F -> F;
  fdiv : F -> F -> F; finv : F -> F;
  fth : field_theory f0 f1 fadd fmul fsub fopp fdiv finv (@eq F);
  fz : F -> bool;
  fz_ok : forall x, fz x = true <-> x = f0 }.

(* the rationals in lowest terms *)
Definition QcFld : fld.
Proof.
  refine (mkfld Qc 0%Qc 1%Qc Qcplus Qcmult Qcminus Qcopp Qcdiv Qcinv Qcft
            (fun x => if Qc_eq_dec x 0%Qc then true else false) _).
  intros x. destruct (Qc_eq_dec x 0%Qc); split; congruence.
Defined.

Section Sums.
Variable K : fld.
Add Field Kfield : (fth K).
Notation "0" := (f0 K). Notation "1" := (f1 K).
Declare Scope fs_scope.
Infix "+" := (fadd K) : fs_scope. Infix "*" := (fmul K) : fs_scope. Infix "-" := (fsub K) : fs_scope.
Infix "/" := (fdiv K) : fs_scope.
Delimit Scope fs_scope with fs.

(* sum of f k over lo <= k < hi *)
Definition fsum (lo hi : Z) (f : Z -> F K) : F K := foldZ lo hi (fun k acc => (acc + f k)%fs) 0.

Lemma fsum_empty : forall lo hi f, hi <= lo -> fsum lo hi f = 0.
Proof. intros. unfold fsum. now apply foldZ_empty. Qed.
Lemma fsum_snoc : forall lo hi f, lo <= hi -> fsum lo (hi + 1)%Z f = (fsum lo hi f + f hi)%fs.
Proof. intros. unfold fsum. now rewrite foldZ_snoc by assumption. Qed.
Lemma fsum_ext : forall lo hi f g, (forall k, lo <= k < hi -> f k = g k) -> fsum lo hi f = fsum lo hi g.
Proof. intros. unfold fsum. apply foldZ_ext. intros k t Hk. now rewrite H. Qed.

Lemma fsum_ind : forall (P : Z -> Prop) lo hi, lo <= hi -> P lo -> (forall i, lo <= i < hi -> P i -> P (i + 1)%Z) -> P hi.
Proof. exact Z_range_ind. Qed.

Lemma fsum_zero : forall lo hi f, (forall k, lo <= k < hi -> f k = 0) -> fsum lo hi f = 0.
Proof.
  intros lo hi f H. destruct (Z_le_gt_dec lo hi) as [L|L]; [|apply fsum_empty; lia].
  assert (G : forall m, lo <= m <= hi -> fsum lo m f = 0).
  { intros m Hm. apply (Z_range_ind (fun m => m <= hi -> fsum lo m f = 0) lo m); [lia| | |lia].
    - intros _. apply fsum_empty; lia.
    - intros i Hi IH Hi2. rewrite fsum_snoc by lia. rewrite IH, H by lia. ring. }
  apply G; lia.
Qed.
Lemma fsum_split : forall lo mid hi f, lo <= mid <= hi -> fsum lo hi f = (fsum lo mid f + fsum mid hi f)%fs.
Proof.
  intros lo mid hi f H.
  apply (Z_range_ind (fun m => fsum lo m f = (fsum lo mid f + fsum mid m f)%fs) mid hi); [lia| |].
  - rewrite (fsum_empty mid mid) by lia. ring.
  - intros i Hi IH. rewrite fsum_snoc by lia. rewrite IH, fsum_snoc by lia. ring.
Qed.
Lemma fsum_cons : forall lo hi f, lo < hi -> fsum lo hi f = (f lo + fsum (lo + 1)%Z hi f)%fs.
Proof.
  intros lo hi f H. rewrite (fsum_split lo (lo + 1)%Z hi) by lia. rewrite fsum_snoc by lia.
  rewrite fsum_empty by lia. ring.
Qed.
Lemma fsum_add : forall lo hi f g, fsum lo hi (fun k => (f k + g k)%fs) = (fsum lo hi f + fsum lo hi g)%fs.
Proof.
  intros lo hi f g. destruct (Z_le_gt_dec lo hi) as [L|L]; [|rewrite !fsum_empty by lia; ring].
  apply (Z_range_ind (fun m => fsum lo m (fun k => (f k + g k)%fs) = (fsum lo m f + fsum lo m g)%fs) lo hi); [lia| |].
  - rewrite !fsum_empty by lia. ring.
  - intros i Hi IH. rewrite !fsum_snoc by lia. rewrite IH. ring.
Qed.
Lemma fsum_scale : forall lo hi a f, fsum lo hi (fun k => (a * f k)%fs) = (a * fsum lo hi f)%fs.
Proof.
  intros lo hi a f. destruct (Z_le_gt_dec lo hi) as [L|L]; [|rewrite !fsum_empty by lia; ring].
  apply (Z_range_ind (fun m => fsum lo m (fun k => (a * f k)%fs) = (a * fsum lo m f)%fs) lo hi); [lia| |].
  - rewrite !fsum_empty by lia. ring.
  - intros i Hi IH. rewrite !fsum_snoc by lia. rewrite IH. ring.
Qed.
Lemma fsum_scale_r : forall lo hi a f, fsum lo hi (fun k => (f k * a)%fs) = (fsum lo hi f * a)%fs.
Proof.
  intros lo hi a f. rewrite (fsum_ext lo hi _ (fun k => (a * f k)%fs)).
  - rewrite fsum_scale. ring.
  - intros; ring.
Qed.
Lemma fsum_swap : forall lo hi lo' hi' (f : Z -> Z -> F K),
  fsum lo hi (fun i => fsum lo' hi' (fun j => f i j)) = fsum lo' hi' (fun j => fsum lo hi (fun i => f i j)).
Proof.
  intros lo hi lo' hi' f. destruct (Z_le_gt_dec lo hi) as [L|L].
  - apply (Z_range_ind (fun m => fsum lo m (fun i => fsum lo' hi' (fun j => f i j)) =
        fsum lo' hi' (fun j => fsum lo m (fun i => f i j))) lo hi); [lia| |].
    + rewrite fsum_empty by lia. symmetry. apply fsum_zero. intros. apply fsum_empty. lia.
    + intros i Hi IH. rewrite fsum_snoc by lia. rewrite IH. rewrite <- fsum_add. apply fsum_ext.
      intros k Hk. now rewrite fsum_snoc by lia.
  - rewrite fsum_empty by lia. symmetry. apply fsum_zero. intros. apply fsum_empty. lia.
Qed.
(* a sum with one nonzero term *)
Lemma fsum_one : forall lo hi f i, lo <= i < hi -> (forall k, lo <= k < hi -> k <> i -> f k = 0) -> fsum lo hi f = f i.
Proof.
  intros lo hi f i Hi Hz. rewrite (fsum_split lo i hi) by lia. rewrite (fsum_cons i hi) by lia.
  rewrite (fsum_zero lo i), (fsum_zero (i + 1)%Z hi).
  - ring. - intros; apply Hz; lia. - intros; apply Hz; lia.
Qed.

(* sum over a list *)
Definition lsum (l : list (F K)) : F K := fold_right (fadd K) 0 l.
Lemma lsum_app : forall a b, lsum (a ++ b) = (lsum a + lsum b)%fs.
Proof.
  induction a as [|x a IH]; intros b.
  - change (lsum b = (0 + lsum b)%fs). ring.
  - change ((x + lsum (a ++ b))%fs = ((x + lsum a) + lsum b)%fs). rewrite IH. ring.
Qed.

Lemma fmul_inv : forall a b, b <> 0 -> (b * (a / b))%fs = a.
Proof. intros. field. assumption. Qed.
Lemma fz_false : forall x, fz K x = false -> x <> 0.
Proof. intros x H E. apply fz_ok in E. congruence. Qed.
End Sums.
