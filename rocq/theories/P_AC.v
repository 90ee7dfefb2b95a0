(* C68: at every frequency of an ac sweep the voltages and the currents of the elements obey
   Kirchhoff's current law and the small-signal law of each element; the current probe shows that
   current.  The small-signal law is the derivative of the law of the operating point. *)
Require Import ZArith List Bool Lia Field QArith Qcanon.
Require Import Verif.Loops Verif.FieldSums Verif.Matrix_Model Verif.Matrix_Layout Verif.Matrix_LU Verif.Matrix_Load Verif.Matrix_Exact Verif.Matrix_Spec
  Verif.Matrix_Main Verif.Solver_Model Verif.Solver_Content Verif.Solver_Proofs Verif.Storage_Model Verif.Elements_Model Verif.Elements_Proofs Verif.AC_Model Verif.AC_Proofs.
Import ListNotations.
Local Open Scope Z_scope.

(* for any list of elements, each with its multiplier, and any list of frequencies *)
Theorem C68_ac_sweep : forall (K : fld) short leb small op s junk mp (xs : list (F K * ael K)) jws,
  0 <= s -> mp <> f0 K -> order_ok K short leb -> small (f0 K) = true ->
  (forall m x, In (m, x) xs -> within K s (ae K x) /\ ready K short leb op (ae K x) (a_set K x) (a_in K x)) ->
  exists M l, start_mat (exA K) s (flat_map (fun q => iwant K (ae K (snd q))) xs) junk mp = Some M /\
    ac_sweep K short leb small op jws xs M = Some l /\ length l = length jws /\
    forall n jw Mx v, nth_error jws n = Some jw -> nth_error l n = Some (Mx, v) ->
      v 0 = f0 K /\
      exists z I l1 l2,
        all_slots K (do_slots K short leb small jw op) xs = Some l1 /\ all_slots K (load_slots_ac K short leb small jw op) xs = Some l2 /\
        (forall r, 1 <= r <= s -> (z r = true <-> coef K (l1 ++ l2) r r =
           fsum K 1 r (fun k => fmul K (lower K (dense K (aa Mx)) r k) (upper1 K (dense K (aa Mx)) k r)))) /\
        length I = length xs /\
        (forall m x i, In ((m, x), i) (combine xs I) ->
           law_ac K short leb small jw op (ae K x) (a_set K x) (a_in K x) v i /\
           (probed_ac K (ae K x) = true -> ac_amps K short leb small jw op x v = Some i)) /\
        (forall r, 1 <= r <= s -> fadd K (fmul K (if z r then mp else f0 K) (v r)) (sum_leaves_ac K op jw xs I v r) = f0 K) /\
        (* and no other voltages do *)
        forall v' I', v' 0 = f0 K -> length I' = length xs ->
          (forall m x i, In ((m, x), i) (combine xs I') -> law_ac K short leb small jw op (ae K x) (a_set K x) (a_in K x) v' i) ->
          (forall r, 1 <= r <= s -> fadd K (fmul K (if z r then mp else f0 K) (v' r)) (sum_leaves_ac K op jw xs I' v' r) = f0 K) ->
          forall r, 1 <= r <= s -> v' r = v r.
Proof.
  intros K short leb small op s junk mp xs jws Hs Hmp Ho Hsm Hx. set (ws := flat_map (fun q => iwant K (ae K (snd q))) xs).
  assert (Hin : forall p, In p ws -> fst p <= s /\ snd p <= s).
  { intros p Hp. apply in_flat_map in Hp. destruct Hp as ((m & x) & Hq & Hp). destruct (Hx m x Hq) as (W & _).
    now apply (iwant_within K s (ae K x)). }
  destruct (start_mat_facts (exA K) s ws junk mp Hs Hin) as (M & EM & Es & Hmw & Em & _ & Hok).
  assert (Hw : wf (aa M)) by apply Hmw.
  assert (HS : Sys (exA K) (aa M) mp M) by (split; [assumption|]; split; [apply shape_refl|assumption]).
  assert (Pl : forall p, wanted_place (size (aa M)) ws p -> place_ok (exA K) (aa M) p).
  { intros p Hp. rewrite Es in Hp. destruct p; cbn [place_ok wanted_place] in *.
    - destruct Hp as (H1 & H2). split; apply Hok; assumption.
    - apply Hok. exact Hp.
    - rewrite Es. exact Hp.
    - apply Hok. exact Hp.
    - apply Hok. exact Hp.
    - rewrite Es. exact Hp.
    - apply Hok. exact Hp.
    - apply Hok. exact Hp. }
  assert (R : Forall (el_ready K short leb op) xs). { apply Forall_forall. intros (m & x) Hq. apply (Hx m x Hq). }
  assert (W : Forall (fun q => within K (size (aa M)) (ae K (snd q)) /\ incl (iwant K (ae K (snd q))) ws) xs).
  { apply Forall_forall. intros (m & x) Hq. cbn [snd]. rewrite Es. split; [apply (Hx m x Hq)|]. intros p Hp. apply in_flat_map. exists (m, x). now split. }
  destruct (sweep_spec K short leb small op Ho Hsm (aa M) mp ws xs Hw Hmp Pl R W jws M HS) as (l & El & Ll & Hl).
  exists M, l. split; [assumption|]. split; [assumption|]. split; [assumption|]. intros n jw Mx v En Eln.
  destruct (Hl n jw Mx v En Eln) as (Mb & Sb & Ef).
  destruct (freq_spec K short leb small op Ho Hsm (aa M) mp jw ws xs Mb Hw Sb Hmp Pl R W) as (M' & x & Ef' & _ & X0 & l1 & l2 & z & I & E1 & E2 & Hz & LI & HI & HK & HU).
  assert (E : (M', x) = (Mx, v)) by congruence. injection E as -> ->. rewrite Es in *.
  split; [assumption|]. exists z, I, l1, l2. split; [assumption|]. split; [assumption|]. split; [assumption|]. split; [assumption|]. split; [|split; [assumption|]].
  - intros m x' i Hi. exact (HI _ _ Hi).
  - intros v' I' V0 LI' HL HK'. apply (HU v' I'); try assumption. intros (m & x') i Hi. exact (HL m x' i Hi).
Qed.
Print Assumptions C68_ac_sweep.

(* the places an element loads values at, in the transient and the ac matrix, are covered by the
   pairs of nodes it declares: no write is outside the matrix *)
Theorem C68_declared_suffices : forall (K : fld) short leb small jw op s ws (x : ael K),
  within K s (ae K x) -> incl (iwant K (ae K x)) ws ->
  (forall l p v, slots K short leb (ae K x) = Some l -> In (p, v) l -> wanted_place s ws p) /\
  (forall l p v, do_slots K short leb small jw op x = Some l -> In (p, v) l -> wanted_place s ws p) /\
  (forall l p v, load_slots_ac K short leb small jw op x = Some l -> In (p, v) l -> wanted_place s ws p).
Proof.
  intros K short leb small jw op s ws x W Hi. split; [|split]; intros l p v E Hin.
  - exact (proj2 (tr_covered K short leb s ws _ l W Hi E p v Hin)).
  - exact (proj2 (do_covered K short leb small jw op s ws x l W Hi E p v Hin)).
  - exact (proj2 (ac_covered K short leb small jw op s ws x l W Hi E p v Hin)).
Qed.
Print Assumptions C68_declared_suffices.

(* ---- the small-signal law is the derivative of the law of the operating point ---- *)
(* elements without storage and without ac behaviour, away from the clamps of a resistor *)
Fixpoint plain (K : fld) (short : F K) leb small (e : element K) (s sin : aset K) : Prop :=
  a_eval K s = None /\
  match e with
  | ER _ _ _ (Lin _ k) _ => let r := if ltb K leb (abs K leb k) short then short else k in a_probes K s = true -> small r = false \/ r = short
  | ER _ _ _ (Fun _ f) a => (leb short (snd (f a)) = true \/ leb (snd (f a)) (fopp K short) = true) /\
      (a_probes K s = true -> small (snd (f a)) = false \/ snd (f a) = short)
  | EY _ _ _ _ _ | EG _ _ _ _ _ _ _ | EV _ _ _ _ | EI _ _ _ _ | EE _ _ _ _ _ _ _ | EVCG _ _ _ _ _ _ _ _ | EVCR _ _ _ _ _ _ _ _ | EP _ _ _ _ _ _ => True
  | EF _ _ _ inp _ _ | EH _ _ _ inp _ _ => plain K short leb small inp sin sin
  | _ => False
  end.
Section Der.
Variable K : fld.
Add Field Kder : (fth K).
Theorem C68_small_signal_is_derivative : forall short leb small jw (e : element K) s sin x i x' i',
  order_ok K short leb -> small (f0 K) = true ->
  ready K short leb true e s sin -> plain K short leb small e s sin -> x 0 = f0 K -> x' 0 = f0 K ->
  law K short leb e x i -> law K short leb e x' i' ->
  law_ac K short leb small jw true e s sin (fun n => fsub K (x' n) (x n)) (fsub K i' i).
Proof.
  intros short leb small jw.
  assert (L3 : forall b a u u', fsub K (lin_at K b a u') (lin_at K b a u) =
    fmul K (match b with Lin _ k => k | Fun _ f => snd (f a) end) (fsub K u' u)) by (intros [k|f] a u u'; cbn [lin_at]; ring).
  assert (M : forall a b c d : F K, a = b -> c = d -> fsub K c a = fsub K d b) by (intros; now subst).
  induction e as [o1 o2 b a|o1 o2 b a|o1 o2 i1 i2 b a|o1 o2 v|o1 o2 v|o1 o2 i1 i2 b a|o1 o2 inp IH b a|o1 o2 inp IH b a
    |o1 o2 i1 i2 f a w|o1 o2 i1 i2 f a w|o1 o2 b a h p|o1 o2 i1 i2 b a h p|o1 o2 i1 i2 f a w h p|o1 o2 b a h p
    |o1 o2 i1 b a h p|n1 n2 lm a1 a2 h p pf pr|o1 o2 v0 v1 ports]; intros s sin x i x' i' OK SM R P X0 X0' L L';
    cbn [plain] in P; destruct P as (Ea & P); cbn [ready] in R; destruct R as (Ev & R); cbn [law] in L, L'; cbn [law_ac];
    unfold res_slope, slope, src_value; rewrite ?Ea; try contradiction.
  - assert (G : forall r : F K, (a_probes K s = true -> small r = false \/ r = short) -> (if (a_probes K s || false) && small r then short else r) = r).
    { intros r H. rewrite orb_false_r. destruct (a_probes K s); [|reflexivity]. cbn [andb]. destruct (H eq_refl) as [E| ->]; [now rewrite E|]. now destruct (small short). }
    destruct b as [k|f].
    + rewrite G by exact P. pose proof (M _ _ _ _ L L') as H. transitivity (fsub K (fsub K (x' o1) (x' o2)) (fsub K (x o1) (x o2))); [ring|]. rewrite H. ring.
    + destruct P as (P & P'). destruct L as (y0 & y1 & L & H & _). destruct L' as (z0 & z1 & L' & H' & _).
      destruct (H P) as (-> & ->). destruct (H' P) as (-> & ->).
      replace (leb short (snd (f a)) || leb (snd (f a)) (fopp K short)) with true by (symmetry; apply orb_true_iff; exact P).
      rewrite G by exact P'. pose proof (M _ _ _ _ L L') as E. transitivity (fsub K (fsub K (x' o1) (x' o2)) (fsub K (x o1) (x o2))); [ring|]. rewrite E. ring.
  - rewrite L, L', L3. f_equal. ring.
  - rewrite L, L', L3. f_equal. ring.
  - pose proof (M _ _ _ _ L L') as H. transitivity (fsub K (fsub K (x' o1) (x' o2)) (fsub K (x o1) (x o2))); [ring|]. rewrite H. ring.
  - rewrite L, L'. ring.
  - pose proof (M _ _ _ _ L L') as H. transitivity (fsub K (fsub K (x' o1) (x' o2)) (fsub K (x o1) (x o2))); [ring|]. rewrite H.
    transitivity (fadd K (fsub K (lin_at K b a (fsub K (x' i1) (x' i2))) (lin_at K b a (fsub K (x i1) (x i2)))) (fmul K short (fsub K i' i))); [ring|].
    rewrite L3. ring.
  - destruct L as (j & _ & Lj & L). destruct L' as (j' & _ & Lj' & L'). destruct R as (_ & Hp & Ri).
    pose proof (IH sin sin x j x' j' OK SM Ri P X0 X0' Lj Lj') as D. exists (fsub K j' j).
    assert (D0 : fsub K (x' 0) (x 0) = f0 K) by (rewrite X0, X0'; ring).
    split; [|split; [exact D|rewrite L, L', L3; reflexivity]].
    assert (Pb : probed_ac K inp = true) by (destruct inp; try discriminate Hp; reflexivity).
    rewrite (amps K short leb small jw true inp sin sin _ Ri Pb). f_equal.
    apply (law_det K short leb small jw true OK SM inp sin sin (fun n => fsub K (x' n) (x n)) _ _ Ri); [destruct inp; try discriminate Hp; exact I| |exact D].
    now apply law_cur_ac.
  - destruct L as (j & _ & Lj & L). destruct L' as (j' & _ & Lj' & L'). destruct R as (_ & Hp & Ri & _).
    pose proof (IH sin sin x j x' j' OK SM Ri P X0 X0' Lj Lj') as D. exists (fsub K j' j).
    assert (D0 : fsub K (x' 0) (x 0) = f0 K) by (rewrite X0, X0'; ring).
    split; [|split; [exact D|]].
    + assert (Pb : probed_ac K inp = true) by (destruct inp; try discriminate Hp; reflexivity).
      rewrite (amps K short leb small jw true inp sin sin _ Ri Pb). f_equal.
      apply (law_det K short leb small jw true OK SM inp sin sin (fun n => fsub K (x' n) (x n)) _ _ Ri); [destruct inp; try discriminate Hp; exact I| |exact D].
      now apply law_cur_ac.
    + pose proof (M _ _ _ _ L L') as H. transitivity (fsub K (fsub K (x' o1) (x' o2)) (fsub K (x o1) (x o2))); [ring|]. rewrite H.
      transitivity (fadd K (fsub K (lin_at K b a j') (lin_at K b a j)) (fmul K short (fsub K i' i))); [ring|]. rewrite L3. reflexivity.
  - rewrite L, L'. ring.
  - destruct L as (r & Er & L). destruct L' as (r' & Er' & L'). subst r'. exists r. split; [exact Er|].
    assert (N : r <> f0 K). { rewrite Er. destruct (fz K (fst (f a))) eqn:Ez; [exact (short_nz K short leb OK)|now apply (fz_nz K)]. }
    rewrite <- Er in L'.
    pose proof (M _ _ _ _ L L') as H. transitivity (fsub K (fsub K (x' o1) (x' o2)) (fsub K (x o1) (x o2))); [ring|]. rewrite H. field. exact N.
  - rewrite L, L'. transitivity (fadd K (fmul K v1 (fsub K (fsub K (x' o1) (x o1)) (fsub K (x' o2) (x o2))))
      (fsub K (lsum K (map (fun q => fmul K (snd q) (fsub K (x' (fst (fst q))) (x' (snd (fst q))))) ports))
              (lsum K (map (fun q => fmul K (snd q) (fsub K (x (fst (fst q))) (x (snd (fst q))))) ports)))); [ring|]. f_equal.
    clear L L' Ev. induction ports as [|q ports IH]; [cbn; ring|]. cbn [map]. rewrite !(lsum_cons' K), <- IH. ring.
Qed.
End Der.
Print Assumptions C68_small_signal_is_derivative.

(* ---- examples, over the complex numbers with rational parts, with shortckt = 1/10 ---- *)
Definition G := (Qc * Qc)%type.
Local Open Scope Qc_scope.
Definition gadd (a b : G) : G := (fst a + fst b, snd a + snd b).
Definition gmul (a b : G) : G := (fst a * fst b - snd a * snd b, fst a * snd b + snd a * fst b).
Definition gopp (a : G) : G := (- fst a, - snd a).
Definition gsub (a b : G) : G := (fst a - fst b, snd a - snd b).
Definition gnorm (a : G) : Qc := fst a * fst a + snd a * snd a.
Definition ginv (a : G) : G := (fst a / gnorm a, - snd a / gnorm a).
Definition gdiv (a b : G) : G := gmul a (ginv b).
Lemma sq_pos : forall a : Qc, 0 <= a * a.
Proof. intros a. unfold Qcle. cbn [this Q2Qc Qcmult]. rewrite !Qred_correct. destruct (this a) as [n d]. unfold Qle. cbn. nia. Qed.
Lemma sq_zero : forall a : Qc, a * a = 0 -> a = 0.
Proof. intros a H. destruct (Qcmult_integral _ _ H); assumption. Qed.
Lemma gnorm_0 : forall a, a <> (0, 0) -> gnorm a <> 0.
Proof.
  intros [a b] H E. unfold gnorm in E. cbn [fst snd] in E. apply H.
  pose proof (sq_pos a) as Pa. pose proof (sq_pos b) as Pb.
  assert (Ea : a * a = 0). { apply Qcle_antisym; [|exact Pa]. rewrite <- E. rewrite <- (Qcplus_0_r (a * a)) at 1. apply Qcplus_le_compat; [apply Qcle_refl|exact Pb]. }
  assert (Eb : b * b = 0). { rewrite Ea, Qcplus_0_l in E. exact E. }
  now rewrite (sq_zero a Ea), (sq_zero b Eb).
Qed.
Definition gz (a : G) : bool := if Qc_eq_dec (fst a) 0 then if Qc_eq_dec (snd a) 0 then true else false else false.
Definition GFld : fld.
Proof.
  refine (mkfld G (0, 0) (1, 0) gadd gmul gsub gopp gdiv ginv _ gz _).
  - constructor.
    + constructor; intros; repeat match goal with a : G |- _ => destruct a end; unfold gadd, gmul, gsub, gopp; cbn [fst snd]; f_equal; ring.
    + intros E. inversion E.
    + reflexivity.
    + intros p H. pose proof (gnorm_0 p H) as N. destruct p as [a b]. unfold gmul, ginv, gnorm in *. cbn [fst snd] in *. f_equal; field; assumption.
  - intros [a b]. unfold gz. cbn [fst snd]. destruct (Qc_eq_dec a 0), (Qc_eq_dec b 0); split; congruence.
Defined.
Local Close Scope Qc_scope.
Definition gq (a : Z) (b : positive) (c : Z) (d : positive) : G := (Q2Qc (a # b), Q2Qc (c # d)).
Definition gr (a : Z) : G := gq a 1 0 1.
Definition gle (a b : G) : bool := if Qclt_le_dec (fst b) (fst a) then false else true.
Definition gsh : G := gq 1 10 0 1.
(* std::abs(z) <= shortckt *)
Definition gsmall (a : G) : bool := if Qclt_le_dec (Q2Qc (1 # 100)) (gnorm a) then false else true.
Lemma g_eq : forall a b : G, gz (gsub a b) = true -> a = b.
Proof.
  intros [a a'] [b b'] H. apply (proj1 (fz_ok GFld (gsub (a, a') (b, b')))) in H. unfold gsub in H. cbn [fst snd f0 GFld] in H.
  pose proof (f_equal fst H) as H1. pose proof (f_equal snd H) as H2. cbn [fst snd] in H1, H2.
  assert (E : forall u v : Qc, (u - v)%Qc = 0%Qc -> u = v). { intros u v E. replace u with (u - v + v)%Qc by ring. rewrite E. ring. }
  now rewrite (E _ _ H1), (E _ _ H2).
Qed.
Lemma g_ne : forall a b : G, gz (gsub a b) = false -> a <> b.
Proof. intros a b H ->. assert (E : gz (gsub b b) = true) by (apply (fz_ok GFld); destruct b; unfold gsub; cbn; f_equal; ring). congruence. Qed.
Ltac geq := apply g_eq; vm_compute; reflexivity.
Ltac gne := apply g_ne; vm_compute; reflexivity.
Lemma order_g : order_ok GFld gsh gle.
Proof. unfold order_ok. repeat split; try reflexivity; gne. Qed.
Definition dcset : aset GFld := mkset GFld None false.
Definition acset (v : G) : aset GFld := mkset GFld (Some (fun _ => v)) true.
Definition st0 : hist GFld := mkh GFld Static (gr 0) (gr 0) (gr 0) mEULER.
Definition zp : fpoly GFld := mkfp GFld (gr 0) (gr 0) (gr 0).
Definition ps0 : past GFld := mkpast GFld zp zp zp zp.
Definition gpow (v : G) : G * G := (gmul v v, gmul (gr 2) v).
(* V(1,0) ac 1; R(1,2) 1; C(2,0) 1; an admittance(2,0) i = v*v at 1/2; F(3,0) of V, gain 2; twice a
   resistor(3,0) of 2; inductors (2,0) of 1 and (3,0) of 2 with the current nodes 4 and 5, coupled by 1 *)
Definition ckt68 : list (G * ael GFld) :=
  let V := EV GFld 1 0 (gr 5) in
  [ (gr 1, mkael GFld V (acset (gr 1)) dcset);
    (gr 1, mkael GFld (ER GFld 1 2 (Lin GFld (gr 1)) (gr 0)) dcset dcset);
    (gr 1, mkael GFld (EC GFld 2 0 (Lin GFld (gr 1)) (gr 0) st0 ps0) (mkset GFld None true) dcset);
    (gr 1, mkael GFld (EY GFld 2 0 (Fun GFld gpow) (gq 1 2 0 1)) dcset dcset);
    (gr 1, mkael GFld (EF GFld 3 0 V (Lin GFld (gr 2)) (gr 0)) dcset (acset (gr 1)));
    (gr 2, mkael GFld (ER GFld 3 0 (Lin GFld (gr 2)) (gr 0)) dcset dcset);
    (gr 1, mkael GFld (ELc GFld 2 0 4 (Lin GFld (gr 1)) (gr 0) st0 ps0) dcset dcset);
    (gr 1, mkael GFld (ELc GFld 3 0 5 (Lin GFld (gr 2)) (gr 0) st0 ps0) dcset dcset);
    (gr 1, mkael GFld (EK GFld 4 5 (gr 1) (gr 0) (gr 0) st0 ps0 ps0 ps0) dcset dcset) ].
Definition jg : Z -> G := fun _ => gr 7.
Definition ws68 := flat_map (fun q => iwant GFld (ae GFld (snd q))) ckt68.
Definition run68 := let* M := start_mat (exA GFld) 5 ws68 jg (gr 1) in ac_sweep GFld gsh gle gsmall true [gq 0 1 1 1; gq 0 1 2 1] ckt68 M.
Lemma ckt68_ok : forall m x, In (m, x) ckt68 -> within GFld 5 (ae GFld x) /\ ready GFld gsh gle true (ae GFld x) (a_set GFld x) (a_in GFld x).
Proof.
  intros m x H. repeat (destruct H as [H|H]; [injection H as <- <-; split; [unfold within; intros n Hn; cbn in Hn; lia|cbn; repeat split; intros; try discriminate; eexists; reflexivity]|]).
  destruct H.
Qed.
(* the voltages at the two frequencies jw = i and 2i, with the current of the source at the first *)
Example ex_C68 : exists M l Mx v I, start_mat (exA GFld) 5 ws68 jg (gr 1) = Some M /\
  ac_sweep GFld gsh gle gsmall true [gq 0 1 1 1; gq 0 1 2 1] ckt68 M = Some l /\ nth_error l 0 = Some (Mx, v) /\
  v 1 = gq 604 629 (-2) 629 /\ v 2 = gq 354 629 (-22) 629 /\ v 3 = gq 396 629 82 629 /\
  length I = length ckt68 /\
  (forall m x i, In ((m, x), i) (combine ckt68 I) -> law_ac GFld gsh gle gsmall (gq 0 1 1 1) true (ae GFld x) (a_set GFld x) (a_in GFld x) v i) /\
  (forall r, 1 <= r <= 5 -> sum_leaves_ac GFld true (gq 0 1 1 1) ckt68 I v r = gr 0).
Proof.
  destruct (C68_ac_sweep GFld gsh gle gsmall true 5 jg (gr 1) ckt68 [gq 0 1 1 1; gq 0 1 2 1]) as (M & l & EM & El & Ll & H).
  - lia.
  - gne.
  - exact order_g.
  - reflexivity.
  - exact ckt68_ok.
  - destruct l as [|(Mx & v) l]; [discriminate|]. destruct (H 0%nat (gq 0 1 1 1) Mx v eq_refl eq_refl) as (V0 & z & I & l1 & l2 & E1 & E2 & Hz & LI & HI & HK & _).
    exists M, ((Mx, v) :: l), Mx, v, I. split; [exact EM|]. split; [exact El|]. split; [reflexivity|].
    assert (R : run68 = Some ((Mx, v) :: l)) by (unfold run68; change (start_mat (exA GFld) 5 ws68 jg (gr 1)) with (start_mat (exA GFld) 5 (flat_map (fun q : F GFld * ael GFld => iwant GFld (ae GFld (snd q))) ckt68) jg (gr 1)); rewrite EM; exact El).
    assert (Q : match run68 with Some ((Mr, u) :: _) => gz (gsub (u 1) (gq 604 629 (-2) 629)) && gz (gsub (u 2) (gq 354 629 (-22) 629)) && gz (gsub (u 3) (gq 396 629 82 629)) &&
       forallb (fun r => match all_slots GFld (do_slots GFld gsh gle gsmall (gq 0 1 1 1) true) ckt68, all_slots GFld (load_slots_ac GFld gsh gle gsmall (gq 0 1 1 1) true) ckt68 with
         | Some a, Some b => negb (gz (gsub (coef GFld (a ++ b) r r) (fsum GFld 1 r (fun k => fmul GFld (lower GFld (dense GFld (aa Mr)) r k) (upper1 GFld (dense GFld (aa Mr)) k r)))))
         | _, _ => false end) [1; 2; 3; 4; 5] | _ => false end = true) by (vm_compute; reflexivity).
    rewrite R, E1, E2 in Q. apply andb_true_iff in Q. destruct Q as (Q & Q4). apply andb_true_iff in Q. destruct Q as (Q & Q3). apply andb_true_iff in Q. destruct Q as (Q1 & Q2).
    split; [now apply g_eq|]. split; [now apply g_eq|]. split; [now apply g_eq|]. split; [exact LI|].
    split; [intros m x i Hi; apply (HI m x i Hi)|]. intros r Hr. specialize (HK r Hr). rewrite forallb_forall in Q4.
    assert (Zr : z r = false).
    { destruct (z r) eqn:Er; [|reflexivity]. apply (proj1 (Hz r Hr)) in Er. specialize (Q4 r ltac:(cbn; lia)). rewrite Er in Q4.
      apply negb_true_iff in Q4. exfalso. exact (g_ne _ _ Q4 eq_refl). }
    rewrite Zr in HK. match type of HK with fadd _ _ ?a = _ => change (gadd (gmul (gr 0) (v r)) a = gr 0) in HK; change (a = gr 0);
      set (u := a : G) in *; clearbody u; transitivity (gadd (gmul (gr 0) (v r)) u); [|exact HK] end.
    destruct u as [p q]; destruct (v r) as [p' q'].
    unfold gadd, gmul, gr, gq. cbn [fst snd]. change (Q2Qc (0 # 1)) with (0%Qc). f_equal; ring.
Qed.

(* small changes at an operating point: the admittance i = v*v expanded at 1/2, and the resistor that
   a current controlled source senses *)
Example ex_C68_derivative : law_ac GFld gsh gle gsmall (gr 0) true
   (EF GFld 3 0 (ER GFld 1 0 (Lin GFld (gr 2)) (gr 0)) (Fun GFld gpow) (gq 1 2 0 1)) dcset dcset
   (fun n => fsub GFld (if n =? 1 then gr 4 else gr 0) (if n =? 1 then gr 1 else gr 0)) (fsub GFld (gq 7 4 0 1) (gq 1 4 0 1)).
Proof.
  apply (C68_small_signal_is_derivative GFld gsh gle gsmall (gr 0) _ dcset dcset (fun n => if n =? 1 then gr 1 else gr 0) (gq 1 4 0 1) (fun n => if n =? 1 then gr 4 else gr 0) (gq 7 4 0 1)).
  - exact order_g.
  - reflexivity.
  - cbn. repeat split; intros; try discriminate; eexists; reflexivity.
  - cbn. repeat split. discriminate.
  - reflexivity.
  - reflexivity.
  - exists (gq 1 2 0 1). split; [|split].
    + cbn [tr_amps eval bind]. f_equal; geq.
    + cbn [law]. geq.
    + geq.
  - exists (gr 2). split; [|split].
    + cbn [tr_amps eval bind]. f_equal; geq.
    + cbn [law]. geq.
    + geq.
Qed.

(* ---- where the ac analysis does not do what is expected ---- *)
(* the ac result should not depend on whether an element has a probe: a source without ac value that
   has one becomes an ac source of its dc value *)
Theorem C68_probe_changes_result_refuted : exists (e : element GFld) x i j, e = EV GFld 1 0 (gr 5) /\
  ac_amps GFld gsh gle gsmall (gr 1) true (mkael GFld e (mkset GFld None false) dcset) x = Some i /\
  ac_amps GFld gsh gle gsmall (gr 1) true (mkael GFld e (mkset GFld None true) dcset) x = Some j /\ i = gr 0 /\ j = gr (-50) /\
  law_ac GFld gsh gle gsmall (gr 1) true e (mkset GFld None true) dcset x i.
Proof.
  exists (EV GFld 1 0 (gr 5)), (fun _ => gr 0). eexists. eexists. split; [reflexivity|].
  split; [reflexivity|]. split; [reflexivity|]. split; [geq|]. split; [geq|]. cbn [law_ac]. geq.
Qed.
Print Assumptions C68_probe_changes_result_refuted.
(* the ac current probe of a current controlled source should show its current: not when it senses a
   voltage source with an ac value *)
Theorem C68_sensing_probe_refuted : exists (e : element GFld) s sin x i j,
  ready GFld gsh gle true e s sin /\ x 0 = gr 0 /\
  law_ac GFld gsh gle gsmall (gr 1) true e s sin x i /\
  ac_amps GFld gsh gle gsmall (gr 1) true (mkael GFld e s sin) x = Some j /\ i = gr (-10) /\ j = gr 10.
Proof.
  exists (EF GFld 2 0 (EV GFld 1 0 (gr 0)) (Lin GFld (gr 1)) (gr 0)), (mkset GFld None false), (acset (gr 2)), (fun n => if n =? 1 then gr 1 else gr 0), (gr (-10)).
  eexists. split; [cbn; repeat split; intros; try discriminate; eexists; reflexivity|]. split; [reflexivity|].
  split; [|split; [reflexivity|]; split; geq].
  exists (gr (-10)). split; [cbn [ac_amps ac_state ac_begin eval bind ae]; unfold ac_amps; cbn; f_equal; geq|]. split; cbn [law_ac]; geq.
Qed.
Print Assumptions C68_sensing_probe_refuted.
(* the same for a transcapacitor: its probe takes the voltage of the output *)
Theorem C68_transcap_probe_refuted : exists (e : element GFld) s sin x i j,
  ready GFld gsh gle true e s sin /\ x 0 = gr 0 /\
  law_ac GFld gsh gle gsmall (gq 0 1 1 1) true e s sin x i /\
  ac_amps GFld gsh gle gsmall (gq 0 1 1 1) true (mkael GFld e s sin) x = Some j /\ i = gq 0 1 3 1 /\ j = gq 0 1 1 1.
Proof.
  exists (ETC GFld 1 0 2 0 (Lin GFld (gr 1)) (gr 0) st0 ps0), dcset, dcset, (fun n => if n =? 1 then gr 1 else if n =? 2 then gr 3 else gr 0), (gq 0 1 3 1).
  eexists. split; [cbn; repeat split; intros; try discriminate; eexists; reflexivity|]. split; [reflexivity|].
  split; [cbn [law_ac]; geq|]. split; [reflexivity|]. split; [reflexivity|geq].
Qed.
Print Assumptions C68_transcap_probe_refuted.
(* a linear element needs no operating point before an ac analysis: but a current controlled voltage
   source asserts; the other controlled sources do not *)
Theorem C68_ccvs_without_op_refuted : exists inp b a,
  ready GFld gsh gle false inp dcset dcset /\ has_iv_probe GFld inp = true /\ b = Lin GFld (gr 2) /\
  ac_state GFld gsh gle gsmall (gr 1) false (mkael GFld (EH GFld 2 0 inp b a) dcset dcset) = None /\
  (exists v, ac_state GFld gsh gle gsmall (gr 1) true (mkael GFld (EH GFld 2 0 inp b a) dcset dcset) = Some v) /\
  (exists v, ac_state GFld gsh gle gsmall (gr 1) false (mkael GFld (EF GFld 2 0 inp b a) dcset dcset) = Some v).
Proof.
  exists (ER GFld 1 0 (Lin GFld (gr 1)) (gr 0)), (Lin GFld (gr 2)), (gr 0).
  split; [cbn; repeat split; intros; try discriminate; gne|]. split; [reflexivity|]. split; [reflexivity|]. split; [reflexivity|].
  split; eexists; reflexivity.
Qed.
Print Assumptions C68_ccvs_without_op_refuted.
(* and the result should be the same with or without: not for a resistor below shortckt *)
Theorem C68_small_resistor_refuted : exists (e : element GFld) x i j, e = ER GFld 1 0 (Lin GFld (gq 1 100 0 1)) (gr 0) /\
  ac_amps GFld gsh gle gsmall (gr 1) true (mkael GFld e dcset dcset) x = Some i /\
  ac_amps GFld gsh gle gsmall (gr 1) false (mkael GFld e dcset dcset) x = Some j /\ i = gr 10 /\ j = gr 100.
Proof.
  exists (ER GFld 1 0 (Lin GFld (gq 1 100 0 1)) (gr 0)), (fun n => if n =? 1 then gr 1 else gr 0). eexists. eexists. split; [reflexivity|].
  split; [reflexivity|]. split; [reflexivity|]. split; geq.
Qed.
Print Assumptions C68_small_resistor_refuted.
(* the capacitor of the circuit declares the pair (2,0), and loads there *)
Example ex_C68_declared : exists l p v, load_slots_ac GFld gsh gle gsmall (gq 0 1 1 1) true (mkael GFld (EC GFld 2 0 (Lin GFld (gr 1)) (gr 0) st0 ps0) dcset dcset) = Some l /\
  In (p, v) l /\ p = PShunt 2 0 /\ wanted_place 5 [(2, 0)] p.
Proof.
  eexists. exists (PShunt 2 0). eexists. split; [reflexivity|]. split; [left; reflexivity|]. split; [reflexivity|].
  eapply (proj2 (proj2 (C68_declared_suffices GFld gsh gle gsmall (gq 0 1 1 1) true 5 [(2, 0)] (mkael GFld (EC GFld 2 0 (Lin GFld (gr 1)) (gr 0) st0 ps0) dcset dcset) _ _))); [reflexivity|left; reflexivity].
  Unshelve.
  - unfold within. intros n Hn. cbn in Hn. lia.
  - intros p Hp. exact Hp.
Qed.
