(* C04, C05: the loaded system has no other solution than the one the substitution gives; both forms of
   the substitution give the same *)
Require Import ZArith List Bool Lia Field QArith Qcanon.
Require Import Verif.Loops Verif.FieldSums Verif.Matrix_Model Verif.Matrix_Layout Verif.Matrix_LU Verif.Matrix_Load Verif.Matrix_Exact Verif.Matrix_Spec
  Verif.Matrix_Main.
Import ListNotations.
Local Open Scope Z_scope.

Section U.
Variable K : fld.
Add Field Kun : (fth K).
(* a square system that is solvable for every right side when transposed has at most one solution *)
Lemma one_solution : forall s (a : Z -> Z -> F K) x x',
  (forall v, exists y, forall c, 1 <= c <= s -> tot K s (fun r => fmul K (a r c) (y r)) = v c) ->
  (forall r, 1 <= r <= s -> tot K s (fun c => fmul K (a r c) (x c)) = tot K s (fun c => fmul K (a r c) (x' c))) ->
  forall k, 1 <= k <= s -> x k = x' k.
Proof.
  intros s a x x' T E k Hk. destruct (T (fun c => if c =? k then f1 K else f0 K)) as (y & Hy).
  assert (P : forall u, tot K s (fun r => fmul K (y r) (tot K s (fun c => fmul K (a r c) (u c)))) = u k).
  { intros u. transitivity (tot K s (fun c => fmul K (if c =? k then f1 K else f0 K) (u c))).
    - transitivity (tot K s (fun r => tot K s (fun c => fmul K (fmul K (a r c) (y r)) (u c)))).
      + unfold tot. apply fsum_ext. intros r Hr. rewrite <- fsum_scale. apply fsum_ext. intros c Hc. ring.
      + unfold tot. rewrite fsum_swap. apply fsum_ext. intros c Hc. rewrite fsum_scale_r. f_equal. apply Hy. lia.
    - unfold tot. rewrite (fsum_split K 1 k (s + 1)) by lia. rewrite (fsum_cons K k) by lia.
      rewrite (fsum_zero K 1 k), (fsum_zero K (k + 1)); [rewrite Z.eqb_refl; ring| |];
        intros c Hc; replace (c =? k) with false by lia; ring. }
  rewrite <- (P x), <- (P x'). unfold tot. apply fsum_ext. intros r Hr. f_equal. apply E. lia.
Qed.
End U.

Theorem C04_solution_unique : forall (K : fld) s ws junk mp l b, 0 <= s ->
  (forall w, In w ws -> fst w <= s /\ snd w <= s) ->
  ops_wanted s ws l -> proto (exA K) true l -> (b = true -> stale_after (exA K) true l = false) ->
  exists M0 M1 M2, start_mat (exA K) s ws junk mp = Some M0 /\ foldM (run1 (exA K)) l M0 = Some M1 /\
    lu_decomp (exA K) b M1 = Some M2 /\
    (min_pivot M1 <> f0 K -> exists z,
      (forall m, 1 <= m <= s -> (z m = true <-> zero_pivot K (aa M1) (lu M2) m)) /\
      forall v x', (forall r, 1 <= r <= s -> tot K s (fun c => fmul K (solved K s (aa M1) (min_pivot M1) z r c) (x' c)) = v r) ->
        (exists x, fbsub1 (exA K) (lu M2) v = Some x /\ forall r, 1 <= r <= s -> x r = x' r) /\
        (forall junk', exists x, fbsub3 (exA K) (lu M2) v junk' = Some x /\ forall r, 1 <= r <= s -> x r = x' r)).
Proof.
  intros K s ws junk mp l b H1 H2 H3 H4 H5.
  destruct (history_solve K s ws junk mp l b H1 H2 H3 H4 H5) as (M0 & M1 & M2 & E0 & E1 & E2 & H).
  exists M0, M1, M2. split; [assumption|]. split; [assumption|]. split; [assumption|]. intros Hm. destruct (H Hm) as (z & Ha & _ & Hb & Hc & Ht).
  exists z. split; [assumption|]. intros v x' Hx'.
  assert (G : forall x, (forall r, 1 <= r <= s -> tot K s (fun c => fmul K (solved K s (aa M1) (min_pivot M1) z r c) (x c)) = v r) -> forall r, 1 <= r <= s -> x r = x' r).
  { intros x Hx r Hr. apply (one_solution K s (solved K s (aa M1) (min_pivot M1) z)); [| |assumption].
    - intros u. destruct (Ht ltac:(lia) u) as (y & _ & Hy). now exists y.
    - intros q Hq. now rewrite Hx, Hx'. }
  split.
  - destruct (Hb v) as (x & Ex & _ & Hx). exists x. split; [assumption|]. now apply G.
  - intros junk'. destruct (Hc v junk') as (x & Ex & _ & Hx). exists x. split; [assumption|]. now apply G.
Qed.
Print Assumptions C04_solution_unique.

Theorem C05_transposed_solution_unique : forall (K : fld) s ws junk mp l b, 1 <= s ->
  (forall w, In w ws -> fst w <= s /\ snd w <= s) ->
  ops_wanted s ws l -> proto (exA K) true l -> (b = true -> stale_after (exA K) true l = false) ->
  exists M0 M1 M2, start_mat (exA K) s ws junk mp = Some M0 /\ foldM (run1 (exA K)) l M0 = Some M1 /\
    lu_decomp (exA K) b M1 = Some M2 /\
    (min_pivot M1 <> f0 K -> exists z,
      (forall m, 1 <= m <= s -> (z m = true <-> zero_pivot K (aa M1) (lu M2) m)) /\
      forall v x', (forall c, 1 <= c <= s -> tot K s (fun r => fmul K (solved K s (aa M1) (min_pivot M1) z r c) (x' r)) = v c) ->
        exists x, fbsubt (exA K) (lu M2) v = Some x /\ forall r, 1 <= r <= s -> x r = x' r).
Proof.
  intros K s ws junk mp l b H1 H2 H3 H4 H5.
  destruct (history_solve K s ws junk mp l b ltac:(lia) H2 H3 H4 H5) as (M0 & M1 & M2 & E0 & E1 & E2 & H).
  exists M0, M1, M2. split; [assumption|]. split; [assumption|]. split; [assumption|]. intros Hm. destruct (H Hm) as (z & Ha & _ & Hb & _ & Ht).
  exists z. split; [assumption|]. intros v x' Hx'. destruct (Ht H1 v) as (x & Ex & Hx). exists x. split; [assumption|].
  intros r Hr. apply (one_solution K s (fun r c => solved K s (aa M1) (min_pivot M1) z c r)); [| |assumption].
  - intros u. destruct (Hb u) as (y & _ & _ & Hy). now exists y.
  - intros q Hq. now rewrite Hx, Hx'.
Qed.
Print Assumptions C05_transposed_solution_unique.

(* two nodes, 1/3 ohm between them and 1 ohm from the first to ground; -1 into the first, 3 into the
   second: the voltages 2 and 3 satisfy the equations, so they are what both forms give *)
Local Notation q n := (Q2Qc (n # 1)).
Definition ops2 : list (op (exA QcFld)) := [OLoad (exA QcFld) (@LSym (exA QcFld) 1 2 (q 3)); OLoad (exA QcFld) (@LSym (exA QcFld) 1 0 (q 1))].
Example ex_C04_unique : exists M0 M1 M2 x y, start_mat (exA QcFld) 2 [(1, 2)] (fun _ => q 99) (q 1) = Some M0 /\ foldM (run1 (exA QcFld)) ops2 M0 = Some M1 /\
  lu_decomp (exA QcFld) false M1 = Some M2 /\
  fbsub1 (exA QcFld) (lu M2) (fun r => if r =? 1 then q (-1) else q 3) = Some x /\ x 1 = q 2 /\ x 2 = q 3 /\
  fbsub3 (exA QcFld) (lu M2) (fun r => if r =? 1 then q (-1) else q 3) (fun _ => q 55) = Some y /\ y 1 = q 2 /\ y 2 = q 3.
Proof.
  destruct (C04_solution_unique QcFld 2 [(1, 2)] (fun _ => q 99) (q 1) ops2 false) as (M0 & M1 & M2 & E0 & E1 & E2 & H).
  - lia.
  - intros w [<-|[]]; cbn; lia.
  - intros x [Hx|[Hx|[]]]; injection Hx as <-; cbn [load_wanted]; repeat split; unfold wanted; cbn; auto; lia.
  - cbn; auto.
  - discriminate.
  - exists M0, M1, M2.
    assert (B : (let* m0 := start_mat (exA QcFld) 2 [(1, 2)] (fun _ => q 99) (q 1) in let* m1 := foldM (run1 (exA QcFld)) ops2 m0 in
      let* m2 := lu_decomp (exA QcFld) false m1 in
      Some (this (min_pivot m1), map (fun rc => this (dense QcFld (aa m1) (fst rc) (snd rc))) [(1,1);(1,2);(2,1);(2,2)],
        map (fun m => fz QcFld (fsub QcFld (dense QcFld (aa m1) m m) (fsum QcFld 1 m (fun k => fmul QcFld (lower QcFld (dense QcFld (lu m2)) m k) (upper1 QcFld (dense QcFld (lu m2)) k m))))) [1; 2]))
      = Some ((1#1)%Q, [4#1; -3#1; -3#1; 3#1]%Q, [false; false])) by (vm_compute; reflexivity).
    rewrite E0 in B. cbn [bind] in B. rewrite E1 in B. cbn [bind] in B. rewrite E2 in B. cbn [bind map] in B. 
    injection B as Bm B11 B12 B21 B22 Z1 Z2. cbn [fst snd] in *.
    assert (Hm : min_pivot M1 <> f0 QcFld). { intros X. apply (f_equal this) in X. rewrite Bm in X. discriminate. }
    destruct (H Hm) as (z & Hz & G).
    assert (Zf : forall r, 1 <= r <= 2 -> z r = false).
    { intros r Hr. destruct (z r) eqn:Er; [|reflexivity]. apply (proj1 (Hz r Hr)) in Er. unfold zero_pivot in Er.
      assert (W : forall w : Qc, fsub QcFld w w = f0 QcFld) by (intros w; cbn; ring).
      assert (r = 1 \/ r = 2) as [-> | ->] by lia; enough (X : false = true) by discriminate X.
      - etransitivity; [symmetry; exact Z1|]. apply (proj2 (fz_ok QcFld _)). etransitivity; [|apply W]. apply (f_equal (fun u => fsub QcFld u _)). exact Er.
      - etransitivity; [symmetry; exact Z2|]. apply (proj2 (fz_ok QcFld _)). etransitivity; [|apply W]. apply (f_equal (fun u => fsub QcFld u _)). exact Er. }
    destruct (G (fun r => if r =? 1 then q (-1) else q 3) (fun r => if r =? 1 then q 2 else q 3)) as ((x & Ex & Hx) & Hy).
    { intros r Hr. unfold tot, solved. rewrite (Zf r Hr). rewrite fsum_cons by lia. rewrite fsum_cons by lia. rewrite fsum_empty by lia.
      rewrite !andb_false_r. assert (r = 1 \/ r = 2) as [-> | ->] by lia; apply Qc_is_canon; cbn [fadd fmul f0 QcFld Z.eqb Pos.eqb];
      change (1 + 1) with 2; cbn [Z.eqb Pos.eqb]; unfold Qcplus, Qcmult, Q2Qc; cbn [this]; rewrite !Qred_correct;
      [rewrite B11, B12|rewrite B21, B22]; reflexivity. }
    destruct (Hy (fun _ => q 55)) as (y & Ey & Hy'). exists x, y.
    split; [assumption|]. split; [assumption|]. split; [assumption|]. split; [assumption|]. split; [apply Hx; lia|]. split; [apply Hx; lia|].
    split; [assumption|]. split; apply Hy'; lia.
Qed.
