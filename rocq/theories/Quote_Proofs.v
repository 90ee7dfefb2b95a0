(* Proofs for C61 and C62: what CS::ctos reads between quotes. *)
Require Import ZArith List Ascii String Bool Lia.
Require Import ZifyBool.
Require Import Verif.Loops Verif.Wmatch_Model Verif.CS_Model Verif.CS_Proofs Verif.CS_Ops.
Import ListNotations.
Local Open Scope Z_scope.

(* the text read from r inside k open quotes, and what is left *)
Fixpoint unq (bq eq : ascii) (k : Z) (r : list ascii) : list ascii * list ascii :=
  match r with
  | [] => ([], [])
  | c :: q =>
    if Ascii.eqb c NUL then ([], r)
    else if Ascii.eqb c eq then if k - 1 <=? 0 then ([], q) else let (d, x) := unq bq eq (k - 1) q in (c :: d, x)
    else if Ascii.eqb c bq then let (d, x) := unq bq eq (k + 1) q in (c :: d, x)
    else if Ascii.eqb c "\" then
      match q with
      | [] => ([], [])
      | e :: q' => if Ascii.eqb e eq then let (d, x) := unq bq eq k q' in (e :: d, x) else unq bq eq k q
      end
    else let (d, x) := unq bq eq k q in (c :: d, x)
  end.
Lemma unq_suffix : forall bq eq n r k, (List.length r <= n)%nat -> suffix (snd (unq bq eq k r)) r.
Proof.
  intros bq eq. induction n as [|n IH]; intros [|c q] k L; try (cbn in L; lia); try apply suffix_refl.
  cbn [unq]. cbn in L.
  assert (A : forall j c', suffix (snd (let (d, x) := unq bq eq j q in (c' :: d, x))) (c :: q)).
  { intros j c'. specialize (IH q j ltac:(lia)). destruct (unq bq eq j q) as [d x]. cbn in *. now apply suffix_cons. }
  destruct (Ascii.eqb c NUL); [apply suffix_refl|].
  destruct (Ascii.eqb c eq); [destruct (k - 1 <=? 0); [cbn; apply suffix_cons, suffix_refl|apply A]|].
  destruct (Ascii.eqb c bq); [apply A|]. destruct (Ascii.eqb c "\"); [|apply A].
  destruct q as [|e q']; [cbn; exists [c]; reflexivity|]. destruct (Ascii.eqb e eq).
  - specialize (IH q' k ltac:(cbn in L; lia)). destruct (unq bq eq k q') as [d x]. cbn in *. now apply suffix_cons, suffix_cons.
  - apply suffix_cons, IH. cbn in *. lia.
Qed.

Section Quoted.
Variable line : list ascii.
Variables bq eq : ascii.
Hypothesis Nb : bq <> NUL.
Hypothesis Ne : eq <> NUL.

(* p has been scanned since position |a| *)
Lemma quoted_vw : forall n quotes a p acc r s, (List.length r < n)%nat -> vw line r s -> line = a ++ p ++ r ->
  exists acc' b' e' s' piece, quoted n bq eq quotes (Z.of_nat (List.length a)) acc s = Some (acc', b', e', s') /\
    vw line (snd (unq bq eq quotes r)) s' /\ substr line b' (e' - b') = Some piece /\ acc' ++ piece = acc ++ p ++ fst (unq bq eq quotes r) /\
    0 <= b' <= e' /\ e' - b' = Z.of_nat (List.length piece).
Proof.
  induction n as [|n IH]; intros quotes a p acc r s Hn V El; [lia|].
  cbn [quoted]. inb (ns_more_vw _ _ _ V). pose proof (vw_cnt _ _ _ V) as C.
  assert (Cs : cnt s = Z.of_nat (List.length a + List.length p)) by (rewrite C, El, !app_length; lia).
  assert (Done : forall y, y = cnt s -> substr line (Z.of_nat (List.length a)) (y - Z.of_nat (List.length a)) = Some p).
  { intros y ->. replace (cnt s - Z.of_nat (List.length a)) with (Z.of_nat (List.length p)) by lia. now apply substr_vw with r. }
  destruct r as [|c q].
  { change (head []) with NUL. cbn [Ascii.eqb]. cbn. exists acc, (Z.of_nat (List.length a)), (cnt s), s, p. split; [reflexivity|]. split; [exact V|].
    split; [now apply Done|]. split; [now rewrite app_nil_r|lia]. }
  change (head (c :: q)) with c. cbn [unq].
  destruct (Ascii.eqb_spec c NUL) as [En|En]; cbn [negb].
  { exists acc, (Z.of_nat (List.length a)), (cnt s), s, p. split; [reflexivity|]. split; [exact V|]. split; [now apply Done|]. split; [cbn; now rewrite app_nil_r|lia]. }
  cbn in Hn.
  (* going on with one more character in the piece *)
  assert (Go : forall j s1, vw line q s1 -> exists acc' b' e' s' piece, quoted n bq eq j (Z.of_nat (List.length a)) acc s1 = Some (acc', b', e', s') /\
    vw line (snd (let (d, x) := unq bq eq j q in (c :: d, x))) s' /\ substr line b' (e' - b') = Some piece /\
    acc' ++ piece = acc ++ p ++ fst (let (d, x) := unq bq eq j q in (c :: d, x)) /\ 0 <= b' <= e' /\ e' - b' = Z.of_nat (List.length piece)).
  { intros j s1 V1. destruct (IH j a (p ++ [c]) acc q s1 ltac:(lia) V1 ltac:(now rewrite <- app_assoc)) as (acc' & b' & e' & s' & piece & E & V' & Su & Eq & B).
    exists acc', b', e', s', piece. destruct (unq bq eq j q) as [d x]. cbn in *. rewrite <- app_assoc in Eq. cbn in Eq. auto 10. }
  destruct (skip1c_vw _ _ _ eq Ne V) as (s1 & E1 & V1 & O1 & _ & F1). inb E1. rewrite O1. change (head (c :: q)) with c in *.
  destruct (Ascii.eqb c eq) eqn:Q1.
  { cbn [eat1] in V1. rewrite Q1 in V1. destruct (Z.leb_spec (quotes - 1) 0).
    - exists acc, (Z.of_nat (List.length a)), (cnt s1 - 1), s1, p. split; [reflexivity|]. split; [exact V1|].
      pose proof (vw_cnt _ _ _ V1) as C1. pose proof (vw_le _ _ _ V) as LL. cbn in LL, C.
      split; [apply Done; lia|]. split; [cbn; now rewrite app_nil_r|lia].
    - now apply Go. }
  assert (V1' : vw line (c :: q) s1) by (rewrite (F1 eq_refl); exact V).
  destruct (skip1c_vw _ _ _ bq Nb V1') as (s2 & E2 & V2 & O2 & _ & F2). inb E2. rewrite O2. change (head (c :: q)) with c in *.
  destruct (Ascii.eqb c bq) eqn:Q2.
  { cbn [eat1] in V2. rewrite Q2 in V2. now apply Go. }
  assert (V2' : vw line (c :: q) s2) by (rewrite (F2 eq_refl); exact V1').
  destruct (skip1c_vw _ _ _ "\"%char ltac:(discriminate) V2') as (s3 & E3 & V3 & O3 & _ & F3). inb E3. rewrite O3. change (head (c :: q)) with c in *.
  destruct (Ascii.eqb c "\") eqn:Q3.
  { cbn [eat1] in V3. rewrite Q3 in V3. assert (Cl : cmd s3 = line) by apply V3. rewrite Cl.
    pose proof (vw_cnt _ _ _ V3) as C3. pose proof (vw_le _ _ _ V) as LL. cbn in LL, C.
    replace (cnt s3 - 1 - Z.of_nat (List.length a)) with (cnt s - Z.of_nat (List.length a)) by lia. inb (Done (cnt s) eq_refl).
    destruct (skip1c_vw _ _ _ eq Ne V3) as (s4 & E4 & V4 & O4 & _ & F4). inb E4.
    assert (El2 : line = (a ++ p ++ [c]) ++ q) by (rewrite El, <- !app_assoc; reflexivity).
    assert (C3' : cnt s3 = Z.of_nat (List.length (a ++ p ++ [c]))) by (rewrite C3, El2, app_length; lia). rewrite C3'.
    destruct q as [|e q'].
    - cbn [eat1] in V4. destruct (IH quotes (a ++ p ++ [c]) [] (acc ++ p) [] s4 ltac:(cbn; lia) V4 El2) as (acc' & b' & e' & s' & piece & E & V' & Su & Eq & B).
      exists acc', b', e', s', piece. cbn in *. rewrite <- app_assoc in Eq. auto 10.
    - cbn [eat1] in V4. change (head (e :: q')) with e in *. destruct (Ascii.eqb e eq) eqn:Q4.
      + destruct (IH quotes (a ++ p ++ [c]) [e] (acc ++ p) q' s4 ltac:(cbn in Hn; lia) V4 El2) as (acc' & b' & e' & s' & piece & E & V' & Su & Eq & B).
        exists acc', b', e', s', piece. destruct (unq bq eq quotes q') as [d x]. cbn in *. rewrite <- app_assoc in Eq. auto 10.
      + destruct (IH quotes (a ++ p ++ [c]) [] (acc ++ p) (e :: q') s4 ltac:(cbn in *; lia) V4 El2) as (acc' & b' & e' & s' & piece & E & V' & Su & Eq & B).
        exists acc', b', e', s', piece. change ([] ++ fst (unq bq eq quotes (e :: q'))) with (fst (unq bq eq quotes (e :: q'))) in Eq. rewrite <- app_assoc in Eq. auto 10. }
  assert (V3' : vw line (c :: q) s3) by (rewrite (F3 eq_refl); exact V2').
  destruct (skip_vw _ _ _ _ V3') as [V4 _]. now apply Go.
Qed.
End Quoted.

(* ctos in front of an opening quote *)
Lemma ctos_quoted : forall line t bqs eqs k bq eq q s, List.length bqs = List.length eqs -> find_pos bq bqs = Some k -> nth k eqs NUL = eq ->
  bq <> NUL -> isgraph bq = true -> eq <> NUL -> vw line (bq :: q) s ->
  exists s', ctos t bqs eqs s = Some (fst (unq bq eq 1 q), s') /\ vw line (dropcom (snd (unq bq eq 1 q))) s'.
Proof.
  intros line t bqs eqs k bq eq q s Hl Fk Nk Nb G Ne V. unfold ctos. rewrite Hl, Nat.eqb_refl. cbn [negb].
  destruct (skipbl_vw _ _ _ V) as (s1 & E1 & V1 & _). inb E1.
  assert (Db : dropbl (bq :: q) = bq :: q).
  { apply drop_idem. unfold head, fblank. cbn. rewrite G. now rewrite andb_false_r. }
  rewrite Db in V1. inb (peek_vw _ _ _ V1). change (head (bq :: q)) with bq.
  destruct (Ascii.eqb_spec bq NUL) as [|_]; [contradiction|]. rewrite Fk. cbv iota zeta. rewrite Nk.
  assert (nth k bqs NUL = bq) as -> by (apply find_pos_nth in Fk; apply Fk).
  destruct (skip_vw _ _ _ _ V1) as [V2 _]. pose proof V2 as (_ & _ & pre & Epre & Cpre).
  destruct (quoted_vw line bq eq Nb Ne (rounds (skip s1)) 1 pre [] [] q (skip s1)) as (acc & b & e & s3 & piece & E3 & V3 & Su & Eq & B).
  { rewrite (vw_rounds _ _ _ V2). pose proof (vw_le _ _ _ V2). lia. }
  { exact V2. }
  { exact Epre. }
  rewrite Cpre. inb E3. replace (cmd s3) with line by (symmetry; apply V3). inb Su.
  destruct (skipcom_vw _ _ _ V3) as (s4 & E4 & V4 & _). inb E4. rewrite Eq. cbn [app].
  eexists. split; [reflexivity|]. exact V4.
Qed.
