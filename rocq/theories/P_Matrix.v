(* Matrix properties C01-C07. *)
Require Import ZArith List Lia Bool QArith Qcanon.
Require Import Verif.Loops Verif.FieldSums Verif.Matrix_Model Verif.Matrix_Load Verif.Matrix_Exact
  Verif.Matrix_Spec Verif.Matrix_Main.
Import ListNotations.
Local Open Scope Z_scope.

(* every declared pair has a cell, all cells are in the allocated block, distinct entries have
   distinct cells, every cell but cell 0 (the ground diagonal) is used, the accessors agree *)
Theorem C01_storage_layout : forall A s ws, 0 <= s -> (forall w, In w ws -> fst w <= s /\ snd w <= s) ->
  exists D, build A s ws = Some D /\ size D = s /\
    (forall i j, 0 < i -> 0 < j -> wanted s ws i j -> exists a, addr_m A D i j = Some a) /\
    (forall r c a, addr_m A D r c = Some a -> 0 < a < nzcount (size D) (low D)) /\
    (forall r c r' c' a, addr_m A D r c = Some a -> addr_m A D r' c' = Some a -> r = r' /\ c = c') /\
    (forall a, 0 < a < nzcount (size D) (low D) -> exists r c, addr_m A D r c = Some a) /\
    (forall r, 1 <= r <= s -> addr_d A D r = addr_m A D r r) /\
    (forall r c a, addr_m A D r c = Some a -> r <= c -> addr_u A D r c = Some a) /\
    (forall r c a, addr_m A D r c = Some a -> c < r -> addr_l A D r c = Some a).
Proof. exact storage_layout. Qed.
Print Assumptions C01_storage_layout.

(* any writes to declared entries, in any order, read back like a dense zero matrix with those
   entries overwritten; no access leaves the allocated block *)
Theorem C01_storage_is_a_matrix : forall A s ws l, 0 <= s -> (forall w, In w ws -> fst w <= s /\ snd w <= s) ->
  (forall w, In w l -> 0 < fst (fst w) /\ 0 < snd (fst w) /\ wanted s ws (fst (fst w)) (snd (fst w))) ->
  exists D D', build A s ws = Some D /\ foldM (write_m A) l D = Some D' /\
    forall r c, 1 <= r <= s -> 1 <= c <= s -> read_s A D' r c = Some (last_write (n0 A) l r c).
Proof. exact storage_map. Qed.
Print Assumptions C01_storage_is_a_matrix.

Ltac wnt := unfold wanted; cbn [fst snd In]; intros; first [exfalso; lia | left; lia | right; left; solve [auto 10] | right; right; solve [auto 10]].
Definition ex_ws : list (Z * Z) := [(1, 2); (4, 2); (3, 3); (0, 4); (4, 3)].
Definition q (n : Z) : Qc := Q2Qc (n # 1).
Example C01_case_hyp : 0 <= 4 /\ (forall w, In w ex_ws -> fst w <= 4 /\ snd w <= 4) /\
  (forall w, In w [((4,2), q 5); ((2,4), q 6); ((1,1), q 7); ((4,2), q 8)] ->
     0 < fst (fst w) /\ 0 < snd (fst w) /\ wanted 4 ex_ws (fst (fst w)) (snd (fst w))).
Proof.
  split; [lia|]. split.
  - intros w H. repeat (destruct H as [<-|H]; [cbn; lia|]). destruct H.
  - intros w H. cbn in H. unfold ex_ws.
    destruct H as [<-|[<-|[<-|[<-|[]]]]]; cbn [fst snd]; (split; [lia|split; [lia|wnt]]).
Qed.
Example C01_case_value :
  option_map (fun D => (map (fun rc => option_map this (read_s (exA QcFld) D (fst rc) (snd rc)))
                         [(4,2); (2,4); (1,1); (3,4); (1,4)], nzcount (size D) (low D)))
    (bind (build (exA QcFld) 4 ex_ws) (foldM (write_m (exA QcFld)) [((4,2), q 5); ((2,4), q 6); ((1,1), q 7); ((4,2), q 8)]))
  = Some ([Some (8#1); Some (6#1); Some (7#1); Some 0%Q; Some 0%Q], 11).
Proof. vm_compute. reflexivity. Qed.

(* after any loads on declared nodes the matrix is the sum of their stamps *)
Theorem C02_stamping_is_dense_sum : forall (K : fld) s ws l junk mp, 0 <= s ->
  (forall w, In w ws -> fst w <= s /\ snd w <= s) ->
  (forall x, In x l -> load_wanted s ws x) ->
  exists M M', start_mat (exA K) s ws junk mp = Some M /\ foldM (do_load (exA K)) l M = Some M' /\
    forall r c, 1 <= r <= s -> 1 <= c <= s ->
      read_s (exA K) (aa M') r c = Some (lsum K (map (fun x => @stamp K (exA K) (fun v => v) x r c) l)).
Proof. exact stamping. Qed.
Print Assumptions C02_stamping_is_dense_sum.

Definition ex_loads : list (load (exA QcFld)) :=
  [@LSym (exA QcFld) 1 2 (q 3); @LSym (exA QcFld) 0 4 (q 1); @LAsym (exA QcFld) 4 0 2 3 (q 7);
   @LCouple (exA QcFld) 4 3 (q 2); @LDiag (exA QcFld) 3 (q 5); @LPoint (exA QcFld) 2 4 (q 1)].
Example C02_case_hyp : forall x, In x ex_loads -> load_wanted 4 ex_ws x.
Proof.
  intros x H. cbn [ex_loads In] in H.
  repeat (destruct H as [<-|H]; [cbn [load_wanted]; unfold ex_ws; repeat (split; [wnt|]); wnt|]).
  destruct H.
Qed.
Example C02_case_value :
  map (fun rc => this (lsum QcFld (map (fun x => @stamp QcFld (exA QcFld) (fun v => v) x (fst rc) (snd rc)) ex_loads)))
     [(1,1); (1,2); (2,2); (4,4); (4,2); (4,3); (3,4); (3,3); (2,4)]
  = [3#1; -3#1; 3#1; 1#1; 7#1; -9#1; -2#1; 5#1; 1#1]%Q.
Proof. vm_compute. reflexivity. Qed.

(* any history of loads, clears, gmin additions, pivot settings and decompositions that respects
   the protocol (a partial decomposition is not requested while the marks are insufficient),
   then one more decomposition: L*U is the matrix, plus min_pivot at the diagonal positions where
   the elimination left exactly zero *)
Theorem C03_lu_product : forall (K : fld) s ws junk mp l b, 0 <= s ->
  (forall w, In w ws -> fst w <= s /\ snd w <= s) ->
  ops_wanted s ws l -> proto (exA K) true l -> (b = true -> stale_after (exA K) true l = false) ->
  exists M0 M1 M2, start_mat (exA K) s ws junk mp = Some M0 /\ foldM (run1 (exA K)) l M0 = Some M1 /\
    lu_decomp (exA K) b M1 = Some M2 /\
    (min_pivot M1 <> f0 K -> exists z,
      (forall m, 1 <= m <= s -> (z m = true <-> zero_pivot K (aa M1) (lu M2) m)) /\
      (forall r c, 1 <= r <= s -> 1 <= c <= s -> prod K s (lu M2) r c = solved K s (aa M1) (min_pivot M1) z r c)).
Proof.
  intros K s ws junk mp l b H1 H2 H3 H4 H5.
  destruct (history_solve K s ws junk mp l b H1 H2 H3 H4 H5) as (M0 & M1 & M2 & E0 & E1 & E2 & H).
  exists M0, M1, M2. repeat (split; [assumption|]). intros Hm. destruct (H Hm) as (z & Ha & Hb & _).
  exists z. now split.
Qed.
Print Assumptions C03_lu_product.

(* ... and both forms of the forward/back substitution then solve that system, for every right
   hand side and whatever the scratch vector held *)
Theorem C04_substitution_solves : forall (K : fld) s ws junk mp l b, 0 <= s ->
  (forall w, In w ws -> fst w <= s /\ snd w <= s) ->
  ops_wanted s ws l -> proto (exA K) true l -> (b = true -> stale_after (exA K) true l = false) ->
  exists M0 M1 M2, start_mat (exA K) s ws junk mp = Some M0 /\ foldM (run1 (exA K)) l M0 = Some M1 /\
    lu_decomp (exA K) b M1 = Some M2 /\
    (min_pivot M1 <> f0 K -> exists z,
      (forall m, 1 <= m <= s -> (z m = true <-> zero_pivot K (aa M1) (lu M2) m)) /\
      (forall v, exists x, fbsub1 (exA K) (lu M2) v = Some x /\ x 0 = v 0 /\
        forall r, 1 <= r <= s -> tot K s (fun c => fmul K (solved K s (aa M1) (min_pivot M1) z r c) (x c)) = v r) /\
      (forall v c, exists x, fbsub3 (exA K) (lu M2) v c = Some x /\ x 0 = f0 K /\
        forall r, 1 <= r <= s -> tot K s (fun c => fmul K (solved K s (aa M1) (min_pivot M1) z r c) (x c)) = v r)).
Proof.
  intros K s ws junk mp l b H1 H2 H3 H4 H5.
  destruct (history_solve K s ws junk mp l b H1 H2 H3 H4 H5) as (M0 & M1 & M2 & E0 & E1 & E2 & H).
  exists M0, M1, M2. repeat (split; [assumption|]). intros Hm. destruct (H Hm) as (z & Ha & _ & Hb & Hc & _).
  exists z. now split.
Qed.
Print Assumptions C04_substitution_solves.

(* the transposed substitution solves the transposed system (at least one node) *)
Theorem C05_transposed_substitution_solves : forall (K : fld) s ws junk mp l b, 1 <= s ->
  (forall w, In w ws -> fst w <= s /\ snd w <= s) ->
  ops_wanted s ws l -> proto (exA K) true l -> (b = true -> stale_after (exA K) true l = false) ->
  exists M0 M1 M2, start_mat (exA K) s ws junk mp = Some M0 /\ foldM (run1 (exA K)) l M0 = Some M1 /\
    lu_decomp (exA K) b M1 = Some M2 /\
    (min_pivot M1 <> f0 K -> exists z,
      (forall m, 1 <= m <= s -> (z m = true <-> zero_pivot K (aa M1) (lu M2) m)) /\
      (forall v, exists x, fbsubt (exA K) (lu M2) v = Some x /\
        forall c, 1 <= c <= s -> tot K s (fun r => fmul K (solved K s (aa M1) (min_pivot M1) z r c) (x r)) = v c)).
Proof.
  intros K s ws junk mp l b H1 H2 H3 H4 H5.
  destruct (history_solve K s ws junk mp l b ltac:(lia) H2 H3 H4 H5) as (M0 & M1 & M2 & E0 & E1 & E2 & H).
  exists M0, M1, M2. repeat (split; [assumption|]). intros Hm. destruct (H Hm) as (z & Ha & _ & _ & _ & Hb).
  exists z. split; [assumption|]. now apply Hb.
Qed.
Print Assumptions C05_transposed_substitution_solves.

(* with no node at all the transposed substitution divides by a diagonal that does not exist *)
Theorem C05_no_nodes_refuted : forall (K : fld) v, exists D, build (exA K) 0 [] = Some D /\ fbsubt (exA K) D v = None.
Proof. intros K v. eexists. split; [reflexivity|]. reflexivity. Qed.
Print Assumptions C05_no_nodes_refuted.

Definition ex_ops : list (op (exA QcFld)) :=
  map (OLoad (exA QcFld)) ex_loads ++ [ODezero (exA QcFld) (q 1); OPivot (exA QcFld) (Q2Qc (1#10)); OLU (exA QcFld) false;
    OLoad (exA QcFld) (@LSym (exA QcFld) 4 3 (q 2)); OLU (exA QcFld) true; OLoad (exA QcFld) (@LDiag (exA QcFld) 1 (q 4))].
Example C03_case_hyp : ops_wanted 4 ex_ws ex_ops /\ proto (exA QcFld) true ex_ops /\ stale_after (exA QcFld) true ex_ops = false.
Proof.
  split; [|split; [cbn; auto|reflexivity]].
  intros x H. unfold ex_ops, ex_loads in H. cbn [map app In] in H.
  repeat (destruct H as [H|H]; [(discriminate H || (injection H as <-; cbn [load_wanted]; unfold ex_ws; repeat (split; [wnt|]); wnt))|]).
  destruct H.
Qed.
(* the whole chain computed: the residual A*x - b is zero in every row, and A*x - b for the transpose too *)
Example C04_case_value :
  (let* M0 := start_mat (exA QcFld) 4 ex_ws (fun _ => q 99) (q 0) in
   let* M1 := foldM (run1 (exA QcFld)) ex_ops M0 in
   let* M2 := lu_decomp (exA QcFld) true M1 in
   let* x := fbsub3 (exA QcFld) (lu M2) (fun i => q (if i =? 1 then 0 else i)) (fun _ => q 77) in
   let* y := fbsubt (exA QcFld) (lu M2) (fun i => q (i * i)) in
   Some (map (fun r => this (tot QcFld 4 (fun c => fmul QcFld (dense QcFld (aa M1) r c) (x c)))) [1;2;3;4],
         map (fun c => this (tot QcFld 4 (fun r => fmul QcFld (dense QcFld (aa M1) r c) (y r)))) [1;2;3;4]))
  = Some ([0; 2#1; 3#1; 4#1], [1#1; 4#1; 9#1; 16#1])%Q.
Proof. vm_compute. reflexivity. Qed.
(* a zero pivot is replaced: one floating node *)
Example C03_case_zero_pivot :
  (let* M0 := start_mat (exA QcFld) 2 [(1,2)] (fun _ => q 99) (Q2Qc (1#10)) in
   let* M1 := foldM (run1 (exA QcFld)) [OLoad (exA QcFld) (@LSym (exA QcFld) 1 2 (q 3))] M0 in
   let* M2 := lu_decomp (exA QcFld) false M1 in
   Some (map (fun rc => this (prod QcFld 2 (lu M2) (fst rc) (snd rc))) [(1,1);(1,2);(2,1);(2,2)]))
  = Some [3#1; -3#1; -3#1; 31#10]%Q.
Proof. vm_compute. reflexivity. Qed.

(* for ANY arithmetic (in particular floating point): after any protocol history, the partial
   decomposition leaves bit for bit the factors a full decomposition by a fresh solver would *)
Theorem C06_partial_equals_full : forall A s ws junk mp l, 0 <= s -> (forall w, In w ws -> fst w <= s /\ snd w <= s) ->
  ops_wanted s ws l -> proto A true l -> stale_after A true l = false ->
  exists M0 M1 Mp, start_mat A s ws junk mp = Some M0 /\ foldM (run1 A) l M0 = Some M1 /\
    lu_decomp A true M1 = Some Mp /\
    forall junk' ch, exists Mf,
      lu_decomp A false (mkmat (aa M1) (mkdata (size (aa M1)) (low (aa M1)) junk') ch (min_pivot M1)) = Some Mf /\
      forall r c, 1 <= r <= s -> 1 <= c <= s -> read_s A (lu Mp) r c = read_s A (lu Mf) r c.
Proof. exact partial_full. Qed.
Print Assumptions C06_partial_equals_full.

Lemma some_of : forall X (o : option X) (P : X -> Prop),
  match o with Some x => P x | None => False end -> exists x, o = Some x /\ P x.
Proof. intros X [x|] P H; [now exists x|contradiction]. Qed.
(* outside the protocol it is false: clearing the matrix does not mark it *)
Theorem C06_unmarked_clear_refuted : exists l M0 M1 Mp Mf,
  ops_wanted 1 [] l /\ start_mat (exA QcFld) 1 [] (fun _ => q 0) (q 1) = Some M0 /\
  foldM (run1 (exA QcFld)) l M0 = Some M1 /\ lu_decomp (exA QcFld) true M1 = Some Mp /\
  lu_decomp (exA QcFld) false M1 = Some Mf /\ read_s (exA QcFld) (lu Mp) 1 1 <> read_s (exA QcFld) (lu Mf) 1 1.
Proof.
  pose (l := [OLoad (exA QcFld) (@LDiag (exA QcFld) 1 (q 5)); OLU (exA QcFld) false; ODezero (exA QcFld) (q 1)]).
  assert (W : ops_wanted 1 [] l).
  { intros x [H|[H|[H|[]]]]; try discriminate H. injection H as <-. cbn. unfold wanted. intros; left; lia. }
  assert (C : match start_mat (exA QcFld) 1 [] (fun _ => q 0) (q 1) with
    | Some M0 => match foldM (run1 (exA QcFld)) l M0 with
      | Some M1 => match lu_decomp (exA QcFld) true M1 with
        | Some Mp => match lu_decomp (exA QcFld) false M1 with
          | Some Mf => read_s (exA QcFld) (lu Mp) 1 1 <> read_s (exA QcFld) (lu Mf) 1 1
          | None => False end
        | None => False end
      | None => False end
    | None => False end) by (vm_compute; intros H; discriminate H).
  apply some_of in C. destruct C as (M0 & E0 & C). apply some_of in C. destruct C as (M1 & E1 & C).
  apply some_of in C. destruct C as (Mp & E2 & C). apply some_of in C. destruct C as (Mf & E3 & C).
  exists l, M0, M1, Mp, Mf. exact (conj W (conj E0 (conj E1 (conj E2 (conj E3 C))))).
Qed.
Print Assumptions C06_unmarked_clear_refuted.

(* the in-place decomposition agrees with the copying one whenever rounding the dot product first
   makes no difference (exact arithmetic, or no wider type) *)
Theorem C07_inplace_equals_copy : forall A s ws junk mp l, (forall a w, wsub A a w = nsub A a (wnar A w)) ->
  0 <= s -> (forall w, In w ws -> fst w <= s /\ snd w <= s) ->
  (forall x, In x l -> load_wanted s ws x) ->
  exists M0 M1 Mc D, start_mat A s ws junk mp = Some M0 /\ foldM (do_load A) l M0 = Some M1 /\
    lu_decomp A false M1 = Some Mc /\ ip_lu_decomp A mp (aa M1) = Some D /\
    forall r c, 1 <= r <= s -> 1 <= c <= s -> read_s A D r c = read_s A (lu Mc) r c.
Proof. exact inplace_copy. Qed.
Print Assumptions C07_inplace_equals_copy.
Example C07_case_hyp : forall a w, wsub (exA QcFld) a w = nsub (exA QcFld) a (wnar (exA QcFld) w).
Proof. reflexivity. Qed.

(* with a genuinely wider accumulator the two solvers can differ: integers up to 8 are exact,
   larger ones are rounded to a multiple of 4 *)
Definition rnd (x : Z) : Z := if Z.abs x <=? 8 then x else 4 * ((x + 2) / 4).
Definition roundA : arith :=
  Build_arith Z Z 0 (fun a b => rnd (a + b)) (fun a b => rnd (a - b)) (fun a b => rnd (a * b))
    (fun a b => rnd (a / b)) (fun a => a =? 0) 0 Z.add (fun a w => rnd (a - w)) rnd.
Theorem C07_wider_accumulator_refuted : exists s ws l M0 M1 Mc D,
  (forall w, In w ws -> fst w <= s /\ snd w <= s) /\ (forall x, In x l -> load_wanted s ws x) /\
  start_mat roundA s ws (fun _ => 0) 1 = Some M0 /\ foldM (do_load roundA) l M0 = Some M1 /\
  lu_decomp roundA false M1 = Some Mc /\ ip_lu_decomp roundA 1 (aa M1) = Some D /\
  read_s roundA (lu Mc) 3 3 = Some 3 /\ read_s roundA D 3 3 = Some 4.
Proof.
  exists 3, [(1, 2); (1, 3); (2, 3)],
    [@LDiag roundA 1 1; @LDiag roundA 2 1; @LDiag roundA 3 12; @LPoint roundA 1 3 2; @LPoint roundA 2 3 1;
     @LPoint roundA 3 1 4; @LPoint roundA 3 2 1].
  set (ws := [(1, 2); (1, 3); (2, 3)]). match goal with |- context [foldM _ ?x _] => set (l := x) end.
  assert (W : forall x, In x l -> load_wanted 3 ws x).
  { intros x H. unfold l in H. cbn [In] in H. unfold ws.
    repeat (destruct H as [<-|H]; [cbn [load_wanted]; wnt|]). destruct H. }
  assert (C : match start_mat roundA 3 ws (fun _ => 0) 1 with
    | Some M0 => match foldM (do_load roundA) l M0 with
      | Some M1 => match lu_decomp roundA false M1 with
        | Some Mc => match ip_lu_decomp roundA 1 (aa M1) with
          | Some D => read_s roundA (lu Mc) 3 3 = Some 3 /\ read_s roundA D 3 3 = Some 4
          | None => False end
        | None => False end
      | None => False end
    | None => False end) by (vm_compute; split; reflexivity).
  apply some_of in C. destruct C as (M0 & E0 & C). apply some_of in C. destruct C as (M1 & E1 & C).
  apply some_of in C. destruct C as (Mc & E2 & C). apply some_of in C. destruct C as (D & E3 & C).
  exists M0, M1, Mc, D. split.
  { clear. intros w [<-|[<-|[<-|[]]]]; cbn; lia. }
  exact (conj W (conj E0 (conj E1 (conj E2 (conj E3 C))))).
Qed.
Print Assumptions C07_wider_accumulator_refuted.
