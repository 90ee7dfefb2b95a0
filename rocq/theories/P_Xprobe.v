(* C76: what a probe name in an ac analysis shows *)
Require Import String.
Require Import Reals List Ascii Bool Lia Lra.
Require Import Verif.Loops Verif.Wmatch_Model Verif.CS_Model Verif.CS_Proofs Verif.CS_Ops Verif.CS_Word Verif.Params_Model Verif.P_Params Verif.Xprobe_Model Verif.Xprobe_Proofs.
Import ListNotations.
Local Open Scope string_scope.
Local Open Scope list_scope.

(* ---- names ---- *)
Definition letters_id (n : list ascii) : Prop := n <> [] /\ Forall (fun c => In c (str "abcdefghijklmnopqrstuvwxyz")) n.
Lemma letters_ident : forall n, letters_id n -> ident n.
Proof.
  intros n [N F]. split; [assumption|]. eapply Forall_impl; [|exact F]. intros c H. cbn in H.
  repeat (destruct H as [<-|H]; [split; [|split; [reflexivity|]]; [split; [discriminate|]; cbn; intuition discriminate|cbn; intuition discriminate]|]). contradiction.
Qed.
Ltac is_name := apply letters_ident; split; [discriminate|]; repeat (constructor; [cbn; auto 30|]); constructor.
Lemma Umatch_lit : forall ci x b, ident x -> letters_id b -> exists r, Umatch ci x (b ++ [" "%char]) = Some r /\ (r = true <-> same_name ci x b).
Proof. intros ci x b H B. apply Umatch_name; [assumption|now apply letters_ident]. Qed.

Lemma Umatch_vout : forall ci x, ident x -> exists r, Umatch ci x (str "v{out} ") = Some r /\
  (r = true <-> exists n, In n [str "v"; str "vo"; str "vou"; str "vout"] /\ same_name ci x n).
Proof.
  intros ci x I. unfold Umatch. change (str "v{out} ") with (pattern (str "v") (str "out")).
  assert (P1 : Forall plain (str "v")) by (repeat constructor; try discriminate; cbn; intuition discriminate).
  assert (P2 : Forall plain (str "out")) by (repeat constructor; try discriminate; cbn; intuition discriminate).
  assert (Kw : keyword (str "v") (str "out")).
  { split; [assumption|]. split; [assumption|]. apply Forall_forall. intros k Hk d c S.
    assert (L : to_lower d = "o"%char \/ to_lower d = "u"%char \/ to_lower d = "t"%char).
    { cbn in Hk. destruct Hk as [<-|[<-|[<-|[]]]]; destruct S as [->|[_ ->]]; cbn; auto. }
    intros [E|[E|E]]; [subst d; cbn in L; intuition discriminate|destruct d as [[] [] [] [] [] [] [] []]; try discriminate E; cbn in L; intuition discriminate|
      cbn in E; repeat (destruct E as [<-|E]; [cbn in L; intuition discriminate|]); contradiction]. }
  destruct (umatch_word ci x x (cs_string x) (str "v") (str "out") P1 P2 (vw_start x)) as (s & E & H). rewrite E. cbn [bind].
  assert (Hd : dropbl x = x).
  { destruct I as [N F]. apply drop_idem. destruct x as [|c x]; [contradiction|]. apply Forall_cons_iff in F. destruct F as [(_ & G & _) _]. unfold head. cbn [hd]. unfold fblank. rewrite G. apply andb_false_r. }
  rewrite Hd in H. exists (ok s). split; [reflexivity|]. split.
  - intros O. destruct (wspec ci (str "v") (str "out") x) as [rest|] eqn:W; [|destruct H as [H _]; congruence].
    apply wspec_sound in W. destruct W as (m' & o1 & o2 & o1' & Eo & Fm & Fo & Ex & We).
    assert (rest = []).
    { destruct rest as [|c rest]; [reflexivity|]. exfalso. destruct I as [_ F]. rewrite Ex in F. apply Forall_app in F. destruct F as [_ F]. apply Forall_app in F. destruct F as [_ F]. apply Forall_cons_iff in F. destruct F as [(_ & _ & X) _]. apply X. exact We. }
    subst rest. rewrite app_nil_r in Ex. exists (str "v" ++ o1). split; [|rewrite Ex; apply Forall2_app; assumption].
    destruct o1 as [|a o1]; [cbn; auto|]. cbn in Eo. injection Eo as <- Eo. destruct o1 as [|a o1]; [cbn; auto|]. cbn in Eo. injection Eo as <- Eo. destruct o1 as [|a o1]; [cbn; auto|]. cbn in Eo. injection Eo as <- Eo.
    destruct o1; [cbn; auto|discriminate Eo].
  - intros (n & Hn & S). assert (exists o1 o2, str "out" = o1 ++ o2 /\ n = str "v" ++ o1) as (o1 & o2 & Eo & En).
    { cbn in Hn. destruct Hn as [<-|[<-|[<-|[<-|[]]]]]; [exists [], (str "out")|exists (str "o"), (str "ut")|exists (str "ou"), (str "t")|exists (str "out"), []]; split; reflexivity. }
    subst n. apply Forall2_app_inv_r in S. destruct S as (m' & o1' & Sm & So & ->).
    assert (W : wspec ci (str "v") (str "out") (m' ++ o1') = Some []).
    { apply wspec_complete; [assumption|]. exists m', o1, o2, o1'. rewrite app_nil_r. repeat split; try assumption. }
    rewrite W in H. destruct H as [H _]. exact H.
Qed.

(* the names an element knows, and what stands behind each *)
Definition resistance (e : quantities) : xprobe :=
  if Req_EM_T (fst (q_adm e)) 0 then if Req_EM_T (snd (q_adm e)) 0 then xp_r MAXDBL else xp_c (cinv (q_adm e)) else xp_c (cinv (q_adm e)).
Definition element_table (e : quantities) : table :=
  [(str "v", xp_c (q_vout e)); (str "vo", xp_c (q_vout e)); (str "vou", xp_c (q_vout e)); (str "vout", xp_c (q_vout e));
   (str "vin", xp_c (q_vin e)); (str "i", xp_c (q_amps e)); (str "p", xp_d (cmul (q_vout e) (cconj (q_amps e))) mtREAL 10);
   (str "nv", xp_r (q_nv e)); (str "ev", xp_c (q_ev e)); (str "y", xp_m (q_adm e) mtREAL); (str "r", resistance e);
   (str "z", xp_c (q_z e)); (str "zraw", xp_c (q_zraw e))].
Definition node_table (v z : cplx) : table := [(str "v", xp_c v); (str "z", xp_c z)].

Lemma resistance_exists : forall e, xp_exists (resistance e) = true.
Proof. intros e. unfold resistance. destruct (Req_EM_T _ _); [destruct (Req_EM_T _ _)|]; reflexivity. Qed.
Lemma element_table_ok : forall e, table_ok (element_table e).
Proof.
  intros e n xp H. unfold element_table in H. cbn [In] in H.
  repeat (destruct H as [H|H]; [injection H as <- <-; split; [split; [discriminate|split; [discriminate|]]; intros L; try (cbn in L; lia); cbn; intuition discriminate|first [reflexivity|apply resistance_exists]]|]). contradiction.
Qed.
Lemma node_table_ok : forall v z, table_ok (node_table v z).
Proof.
  intros v z n xp H. unfold node_table in H. cbn [In] in H.
  repeat (destruct H as [H|H]; [injection H as <- <-; split; [split; [discriminate|split; [discriminate|]]; intros L; cbn in L; lia|reflexivity]|]). contradiction.
Qed.

(* the text goes with one name only *)
Ltac others S := let n := fresh "n" in let xp := fresh "xp" in let H := fresh "H" in let S2 := fresh "S2" in let X := fresh "X" in
  intros n xp H S2; cbn [In element_table node_table] in H; pose proof (same_lower _ _ _ S) as X; rewrite (same_lower _ _ _ S2) in X;
  repeat (destruct H as [H|H]; [injection H as <- <-; first [reflexivity|exfalso; vm_compute in X; discriminate X]|]); contradiction.
Ltac hit := split; [reflexivity|].

Lemma element_finds : forall ci e, finds ci (element_ext ci e) (element_table e).
Proof.
  intros ci e x I. unfold element_ext.
  destruct (Umatch_vout ci x I) as (r & E & R). rewrite E. cbn [bind]. destruct r.
  { destruct (proj1 R eq_refl) as (k & Hk & S). eexists. hit. split.
    - cbn in Hk. destruct Hk as [<-|[<-|[<-|[<-|[]]]]]; others S.
    - left. exists k. split; [|assumption]. cbn in Hk. unfold element_table. cbn [In]. destruct Hk as [<-|[<-|[<-|[<-|[]]]]]; auto 8. }
  assert (R0 : forall k, In k [str "v"; str "vo"; str "vou"; str "vout"] -> ~ same_name ci x k) by (intros k Hk S; assert (false = true) by (apply R; eauto); discriminate).
  clear R E.
  assert (St : forall b, letters_id b -> exists r, Umatch ci x (b ++ [" "%char]) = Some r /\ (r = true <-> same_name ci x b)) by (intros b B; now apply Umatch_lit).
  destruct (St (str "vin")) as (r1 & E1 & R1); [split; [discriminate|repeat (constructor; [cbn; auto 30|]); constructor]|].
  destruct (St (str "i")) as (r2 & E2 & R2); [split; [discriminate|repeat (constructor; [cbn; auto 30|]); constructor]|].
  destruct (St (str "p")) as (r3 & E3 & R3); [split; [discriminate|repeat (constructor; [cbn; auto 30|]); constructor]|].
  destruct (St (str "nv")) as (r4 & E4 & R4); [split; [discriminate|repeat (constructor; [cbn; auto 30|]); constructor]|].
  destruct (St (str "ev")) as (r5 & E5 & R5); [split; [discriminate|repeat (constructor; [cbn; auto 30|]); constructor]|].
  destruct (St (str "y")) as (r6 & E6 & R6); [split; [discriminate|repeat (constructor; [cbn; auto 30|]); constructor]|].
  destruct (St (str "r")) as (r7 & E7 & R7); [split; [discriminate|repeat (constructor; [cbn; auto 30|]); constructor]|].
  destruct (St (str "z")) as (r8 & E8 & R8); [split; [discriminate|repeat (constructor; [cbn; auto 30|]); constructor]|].
  destruct (St (str "zraw")) as (r9 & E9 & R9); [split; [discriminate|repeat (constructor; [cbn; auto 30|]); constructor]|].
  change (str "vin" ++ [" "%char]) with (str "vin ") in E1. change (str "i" ++ [" "%char]) with (str "i ") in E2. change (str "p" ++ [" "%char]) with (str "p ") in E3.
  change (str "nv" ++ [" "%char]) with (str "nv ") in E4. change (str "ev" ++ [" "%char]) with (str "ev ") in E5. change (str "y" ++ [" "%char]) with (str "y ") in E6.
  change (str "r" ++ [" "%char]) with (str "r ") in E7. change (str "z" ++ [" "%char]) with (str "z ") in E8. change (str "zraw" ++ [" "%char]) with (str "zraw ") in E9.
  rewrite E1. cbn [bind]. destruct r1; [pose proof (proj1 R1 eq_refl) as S; eexists; hit; split; [others S|left; eexists; split; [unfold element_table; cbn [In]; auto 20|exact S]]|].
  rewrite E2. cbn [bind]. destruct r2; [pose proof (proj1 R2 eq_refl) as S; eexists; hit; split; [others S|left; eexists; split; [unfold element_table; cbn [In]; auto 20|exact S]]|].
  rewrite E3. cbn [bind]. destruct r3; [pose proof (proj1 R3 eq_refl) as S; eexists; hit; split; [others S|left; eexists; split; [unfold element_table; cbn [In]; auto 20|exact S]]|].
  rewrite E4. cbn [bind]. destruct r4; [pose proof (proj1 R4 eq_refl) as S; eexists; hit; split; [others S|left; eexists; split; [unfold element_table; cbn [In]; auto 20|exact S]]|].
  rewrite E5. cbn [bind]. destruct r5; [pose proof (proj1 R5 eq_refl) as S; eexists; hit; split; [others S|left; eexists; split; [unfold element_table; cbn [In]; auto 20|exact S]]|].
  rewrite E6. cbn [bind]. destruct r6; [pose proof (proj1 R6 eq_refl) as S; eexists; hit; split; [others S|left; eexists; split; [unfold element_table; cbn [In]; auto 20|exact S]]|].
  rewrite E7. cbn [bind]. fold (resistance e). destruct r7; [pose proof (proj1 R7 eq_refl) as S; eexists; hit; split; [others S|left; eexists; split; [unfold element_table; cbn [In]; auto 20|exact S]]|].
  rewrite E8. cbn [bind]. destruct r8; [pose proof (proj1 R8 eq_refl) as S; eexists; hit; split; [others S|left; eexists; split; [unfold element_table; cbn [In]; auto 20|exact S]]|].
  rewrite E9. cbn [bind]. destruct r9; [pose proof (proj1 R9 eq_refl) as S; eexists; hit; split; [others S|left; eexists; split; [unfold element_table; cbn [In]; auto 20|exact S]]|].
  exists xp_none. hit. split; [|now right]. intros n xp H S. exfalso. cbn [In element_table] in H.
  assert (Z : forall b r, (false = true <-> same_name ci x b) -> r = b -> ~ same_name ci x r) by (intros b r0 [_ Q] -> Y; specialize (Q Y); discriminate Q).
  repeat (destruct H as [H|H]; [injection H as <- <-; first [refine (R0 _ _ S); cbn; auto 6; fail|
    first [apply (Z _ _ R1 eq_refl S)|apply (Z _ _ R2 eq_refl S)|apply (Z _ _ R3 eq_refl S)|apply (Z _ _ R4 eq_refl S)|apply (Z _ _ R5 eq_refl S)|apply (Z _ _ R6 eq_refl S)|apply (Z _ _ R7 eq_refl S)|apply (Z _ _ R8 eq_refl S)|apply (Z _ _ R9 eq_refl S)]]|]). contradiction.
Qed.
Lemma node_finds : forall ci v z, finds ci (node_ext ci v z) (node_table v z).
Proof.
  intros ci v z x I. unfold node_ext.
  assert (St : forall b, letters_id b -> exists r, Umatch ci x (b ++ [" "%char]) = Some r /\ (r = true <-> same_name ci x b)) by (intros b B; now apply Umatch_lit).
  destruct (St (str "v")) as (r1 & E1 & R1); [split; [discriminate|repeat (constructor; [cbn; auto 30|]); constructor]|].
  destruct (St (str "z")) as (r8 & E8 & R8); [split; [discriminate|repeat (constructor; [cbn; auto 30|]); constructor]|].
  change (str "v" ++ [" "%char]) with (str "v ") in E1. change (str "z" ++ [" "%char]) with (str "z ") in E8.
  rewrite E1. cbn [bind]. destruct r1; [pose proof (proj1 R1 eq_refl) as S; eexists; hit; split; [others S|left; eexists; split; [unfold node_table; cbn [In]; auto 20|exact S]]|].
  rewrite E8. cbn [bind]. destruct r8; [pose proof (proj1 R8 eq_refl) as S; eexists; hit; split; [others S|left; eexists; split; [unfold node_table; cbn [In]; auto 20|exact S]]|].
  exists xp_none. hit. split; [|now right]. intros n xp H S. exfalso. cbn [In node_table] in H.
  assert (Z : forall b r, (false = true <-> same_name ci x b) -> r = b -> ~ same_name ci x r) by (intros b r0 [_ Q] -> Y; specialize (Q Y); discriminate Q).
  repeat (destruct H as [H|H]; [injection H as <- <-; first [apply (Z _ _ R1 eq_refl S)|apply (Z _ _ R8 eq_refl S)]|]). contradiction.
Qed.

(* ---- the parts of a complex number ---- *)
Local Open Scope R_scope.
Lemma polar : forall c, fst c = cabs c * cos (carg c) /\ snd c = cabs c * sin (carg c) /\ - PI < carg c <= PI.
Proof.
  intros [x y]. unfold cabs, carg. cbn [fst snd]. pose proof PI_RGT_0 as P.
  assert (B : forall u v, 0 < u -> sqrt (u * u + v * v) = u * sqrt (1 + (v / u) * (v / u))).
  { intros u v U. replace (u * u + v * v) with (u * u * (1 + v / u * (v / u))) by (field; lra). rewrite sqrt_mult_alt by nra. now rewrite sqrt_square by lra. }
  assert (Sp : forall t, 0 < sqrt (1 + t * t)) by (intros t; apply sqrt_lt_R0; nra).
  destruct (Rlt_dec 0 x) as [X|X].
  - rewrite cos_atan, sin_atan, (B x y X). unfold Rsqr. specialize (Sp (y / x)). pose proof (atan_bound (y / x)). split; [field; lra|]. split; [field; lra|lra].
  - destruct (Rlt_dec x 0) as [X2|X2].
    + assert (E : sqrt (x * x + y * y) = - x * sqrt (1 + (y / x) * (y / x))).
      { replace (x * x + y * y) with ((- x) * (- x) + (- y) * (- y)) by ring. rewrite B by lra. do 3 f_equal. field. lra. }
      rewrite E. specialize (Sp (y / x)). pose proof (atan_bound (y / x)) as Bd.
      assert (Ix : / x < 0) by (now apply Rinv_lt_0_compat).
      destruct (Rle_dec 0 y) as [Y|Y].
      * rewrite neg_cos, neg_sin, cos_atan, sin_atan. unfold Rsqr. split; [field; lra|]. split; [field; lra|].
        assert (T : y / x <= 0) by (unfold Rdiv; nra). assert (atan (y / x) <= 0). { destruct T as [T|T]; [rewrite <- atan_0; left; now apply atan_increasing|rewrite T, atan_0; lra]. } lra.
      * replace (atan (y / x) - PI) with (- (- atan (y / x) + PI)) by ring. rewrite cos_neg, sin_neg, neg_cos, neg_sin, cos_neg, sin_neg, cos_atan, sin_atan. unfold Rsqr.
        split; [field; lra|]. split; [field; lra|]. assert (T : 0 < y / x) by (unfold Rdiv; nra). assert (0 < atan (y / x)) by (rewrite <- atan_0; now apply atan_increasing). lra.
    + assert (x = 0) by lra. subst x. destruct (Rlt_dec 0 y) as [Y|Y]; [|destruct (Rlt_dec y 0) as [Y2|Y2]].
      * rewrite cos_PI2, sin_PI2. replace (0 * 0 + y * y) with (y * y) by ring. rewrite sqrt_square by lra. lra.
      * rewrite cos_neg, sin_neg, cos_PI2, sin_PI2. replace (0 * 0 + y * y) with ((- y) * (- y)) by ring. rewrite sqrt_square by lra. lra.
      * assert (y = 0) by lra. subst y. rewrite cos_0, sin_0. replace (0 * 0 + 0 * 0) with 0 by ring. rewrite sqrt_0. lra.
Qed.

(* the angle meant by a number printed as a phase, and the numbers that are printed *)
Definition angle (opt : phase_t) (u : R) : R := match opt with pRADIANS => u | _ => u * (PI / 180) end.
Definition in_turn (opt : phase_t) (u : R) : Prop :=
  match opt with pDEGREES => -180 < u <= 180 | pP_DEGREES => 0 <= u < 360 | pN_DEGREES => -360 < u <= 0 | pRADIANS => - PI < u <= PI end.
(* u is the wanted part of the complex number c *)
Definition is_part (opt : phase_t) (c : cplx) (m : mod_t) (u : R) : Prop :=
  match m with
  | mtNONE => False
  | mtMAG => 0 <= u /\ u * u = fst c * fst c + snd c * snd c
  | mtPHASE => in_turn opt u /\ exists a, 0 <= a /\ fst c = a * cos (angle opt u) /\ snd c = a * sin (angle opt u)
  | mtREAL => u = fst c
  | mtIMAG => u = snd c
  end.
Lemma shift : forall t, cos (t + 2 * PI) = cos t /\ sin (t + 2 * PI) = sin t.
Proof. intros t. rewrite cos_plus, sin_plus, cos_2PI, sin_2PI. split; ring. Qed.
Lemma shift_back : forall t, cos (t - 2 * PI) = cos t /\ sin (t - 2 * PI) = sin t.
Proof. intros t. rewrite cos_minus, sin_minus, cos_2PI, sin_2PI. split; ring. Qed.
Lemma phase_part : forall opt c, is_part opt c mtPHASE (phase opt c).
Proof.
  intros opt c. destruct (polar c) as (X & Y & B). pose proof PI_RGT_0 as P. pose proof (sqrt_pos (fst c * fst c + snd c * snd c)) as A. fold (cabs c) in A.
  assert (D : carg c * RTOD * (PI / 180) = carg c) by (unfold RTOD; field; lra).
  assert (B1 : -180 < carg c * RTOD <= 180).
  { unfold RTOD. assert (Q : carg c * (180 / PI) = 180 * (carg c / PI)) by (field; lra). rewrite Q.
    assert (-1 < carg c / PI). { apply (Rmult_lt_reg_r PI); [assumption|]. unfold Rdiv. rewrite Rmult_assoc, Rinv_l by lra. lra. }
    assert (carg c / PI <= 1). { apply (Rmult_le_reg_r PI); [assumption|]. unfold Rdiv. rewrite Rmult_assoc, Rinv_l by lra. lra. } lra. }
  unfold is_part, phase, in_turn, angle. destruct opt.
  - split; [lra|]. exists (cabs c). rewrite D. auto.
  - cbv zeta. destruct (Rlt_dec (carg c * RTOD) 0) as [L|L].
    + split; [lra|]. exists (cabs c). replace ((carg c * RTOD + 360) * (PI / 180)) with (carg c + 2 * PI) by (rewrite <- D at 1; field). destruct (shift (carg c)) as [-> ->]. auto.
    + split; [lra|]. exists (cabs c). rewrite D. auto.
  - cbv zeta. destruct (Rlt_dec 0 (carg c * RTOD)) as [L|L].
    + split; [lra|]. exists (cabs c). replace ((carg c * RTOD - 360) * (PI / 180)) with (carg c - 2 * PI) by (rewrite <- D at 1; field). destruct (shift_back (carg c)) as [-> ->]. auto.
    + split; [lra|]. exists (cabs c). rewrite D. auto.
  - split; [lra|]. exists (cabs c). auto.
Qed.
Lemma mag_part : forall opt c, is_part opt c mtMAG (cabs c).
Proof. intros opt c. unfold is_part, cabs. split; [apply sqrt_pos|]. apply sqrt_sqrt. nra. Qed.

(* what is printed for the quantity c, which by itself shows its part d and has k units to a decade *)
Definition prints (opt : phase_t) (c : cplx) (d : mod_t) (k : R) (m : mod_t) (db : bool) (s : shown) : Prop :=
  exists u r, is_part opt c (match m with mtNONE => d | _ => m end) u /\ s = Value r /\
    (if db then exp (r / k * ln 10) = Rmax u (/ 10 ^ 50) else r = u).
Lemma show_prints : forall opt c d k m db, d <> mtNONE -> k <> 0 -> prints opt c d k m db (xp_show opt (XP c d k) m db).
Proof.
  intros opt c d k m db Hd Hk. unfold xp_show, xp_exists. cbn [x_value x_mod x_dbscale].
  assert (L10 : 0 < ln 10) by (rewrite <- ln_1; apply ln_increasing; lra).
  assert (Vp : 0 < VOLTMIN) by (unfold VOLTMIN; apply Rinv_0_lt_compat, pow_lt; lra).
  assert (Db : forall u, exp (k * log10 (Rmax u VOLTMIN) / k * ln 10) = Rmax u (/ 10 ^ 50)).
  { intros u. fold VOLTMIN. unfold log10. replace (k * (ln (Rmax u VOLTMIN) / ln 10) / k * ln 10) with (ln (Rmax u VOLTMIN)) by (field; lra).
    apply exp_ln. pose proof (Rmax_r u VOLTMIN). lra. }
  assert (G : forall m' u, m' = match m with mtNONE => d | _ => m end -> is_part opt c m' u -> prints opt c d k m db (Value (if db then k * log10 (Rmax u VOLTMIN) else u))).
  { intros m' u -> H. exists u. eexists. split; [exact H|]. split; [reflexivity|]. destruct db; [apply Db|reflexivity]. }
  destruct d; [contradiction| | | |]; destruct m; (eapply G; [reflexivity|]); first [apply phase_part|apply mag_part|reflexivity].
Qed.
(* a part is one number *)
Lemma part_unique : forall opt c m u v, c <> (0, 0) -> is_part opt c m u -> is_part opt c m v -> u = v.
Proof.
  intros opt c m u v Nz Hu Hv. destruct m; cbn [is_part] in Hu, Hv; [contradiction| | |congruence|congruence].
  - nra.
  - destruct Hu as (Tu & a & A & X & Y), Hv as (Tv & b & B & X2 & Y2). pose proof PI_RGT_0 as P.
    assert (E2 : a * a = b * b).
    { pose proof (sin2_cos2 (angle opt u)) as Q1. pose proof (sin2_cos2 (angle opt v)) as Q2. unfold Rsqr in *.
      transitivity (fst c * fst c + snd c * snd c).
      - rewrite X, Y. replace (a * cos (angle opt u) * (a * cos (angle opt u)) + a * sin (angle opt u) * (a * sin (angle opt u))) with (a * a * (sin (angle opt u) * sin (angle opt u) + cos (angle opt u) * cos (angle opt u))) by ring. rewrite Q1. ring.
      - rewrite X2, Y2. replace (b * cos (angle opt v) * (b * cos (angle opt v)) + b * sin (angle opt v) * (b * sin (angle opt v))) with (b * b * (sin (angle opt v) * sin (angle opt v) + cos (angle opt v) * cos (angle opt v))) by ring. rewrite Q2. ring. }
    assert (Eab : a = b) by nra. subst b.
    assert (A0 : a <> 0). { intros ->. apply Nz. destruct c as [c1 c2]. cbn [fst snd] in X, Y. rewrite X, Y. f_equal; ring. }
    assert (C1 : cos (angle opt u) = cos (angle opt v)) by (apply (Rmult_eq_reg_l a); [congruence|assumption]).
    assert (S1 : sin (angle opt u) = sin (angle opt v)) by (apply (Rmult_eq_reg_l a); [congruence|assumption]).
    assert (D1 : cos (angle opt u - angle opt v) = 1) by (rewrite cos_minus, C1, S1; pose proof (sin2_cos2 (angle opt v)) as Q; unfold Rsqr in Q; lra).
    assert (Bd : - (2 * PI) < angle opt u - angle opt v < 2 * PI).
    { assert (Dg : forall s, s * (PI / 180) = s / 180 * PI) by (intros s; field).
      destruct opt; cbn [in_turn angle] in *; rewrite ?Dg; nra. }
    assert (Z : angle opt u - angle opt v = 0).
    { set (t := angle opt u - angle opt v) in *. clearbody t.
      assert (H2 : cos t = 1 - 2 * (sin (t / 2) * sin (t / 2))).
      { replace t with (2 * (t / 2)) at 1 by field. rewrite cos_2a_sin. ring. }
      assert (H0 : sin (t / 2) = 0) by nra.
      destruct (Rtotal_order t 0) as [T|[T|T]]; [|assumption|]; exfalso.
      - assert (0 < sin (- (t / 2))) by (apply sin_gt_0; lra). rewrite sin_neg in H. lra.
      - assert (0 < sin (t / 2)) by (apply sin_gt_0; lra). lra. }
    destruct opt; cbn [angle] in Z; try lra; (apply (Rmult_eq_reg_r (PI / 180)); [lra|lra]).
Qed.

(* ---- C76 ---- *)
Definition zero_c (c : cplx) : Prop := c = (0, 0).
(* every quantity of an element: its name, its value, the part shown when none is asked for, and the
   units to a decade *)
Inductive element_has (e : quantities) : list ascii -> cplx -> mod_t -> R -> Prop :=
  | has_v : forall n, In n [str "v"; str "vo"; str "vou"; str "vout"] -> element_has e n (q_vout e) mtMAG 20
  | has_vin : element_has e (str "vin") (q_vin e) mtMAG 20
  | has_i : element_has e (str "i") (q_amps e) mtMAG 20
  | has_p : element_has e (str "p") (fst (q_vout e) * fst (q_amps e) + snd (q_vout e) * snd (q_amps e), snd (q_vout e) * fst (q_amps e) - fst (q_vout e) * snd (q_amps e)) mtREAL 10
  | has_nv : element_has e (str "nv") (q_nv e, 0) mtREAL 20
  | has_ev : element_has e (str "ev") (q_ev e) mtMAG 20
  | has_y : element_has e (str "y") (q_adm e) mtREAL 20
  | has_r : forall z, fst z * fst (q_adm e) - snd z * snd (q_adm e) = 1 -> fst z * snd (q_adm e) + snd z * fst (q_adm e) = 0 -> element_has e (str "r") z mtMAG 20
  | has_r0 : zero_c (q_adm e) -> element_has e (str "r") (MAXDBL, 0) mtREAL 20
  | has_z : element_has e (str "z") (q_z e) mtMAG 20
  | has_zraw : element_has e (str "zraw") (q_zraw e) mtMAG 20.

Lemma cinv_unique : forall a z, fst z * fst a - snd z * snd a = 1 -> fst z * snd a + snd z * fst a = 0 -> z = cinv a.
Proof.
  intros [a b] [x y] H1 H2. unfold cinv. cbn [fst snd] in *.
  assert (D : a * a + b * b <> 0). { intros D. assert (a = 0) by nra. assert (b = 0) by nra. subst. lra. }
  f_equal; apply (Rmult_eq_reg_r (a * a + b * b)); try assumption.
  - transitivity ((x * a - y * b) * a + (x * b + y * a) * b); [ring|]. rewrite H1, H2. field. assumption.
  - transitivity ((x * b + y * a) * a - (x * a - y * b) * b); [ring|]. rewrite H1, H2. field. assumption.
Qed.
Lemma has_entry : forall e n c d k, element_has e n c d k -> In (n, XP c d k) (element_table e) /\ d <> mtNONE /\ k <> 0.
Proof.
  intros e n c d k H. unfold element_table.
  assert (K : 20 <> 0 /\ 10 <> 0) by (split; lra). destruct K as [K1 K2].
  destruct H as [n Hn| | | | | | |z H1 H2|H0| |]; (split; [|split; [discriminate|assumption]]); cbn [In].
  - cbn in Hn. destruct Hn as [<-|[<-|[<-|[<-|[]]]]]; unfold xp_c; auto 20.
  - unfold xp_c; auto 20.
  - unfold xp_c; auto 20.
  - do 6 right. left. unfold xp_d. do 2 f_equal. unfold cmul, cconj. cbn [fst snd]. f_equal; ring.
  - unfold xp_r. auto 20.
  - unfold xp_c; auto 20.
  - unfold xp_m; auto 20.
  - do 10 right. left. rewrite (cinv_unique _ _ H1 H2). unfold resistance, xp_c.
    destruct (Req_EM_T (fst (q_adm e)) 0) as [F|F]; [|reflexivity]. destruct (Req_EM_T (snd (q_adm e)) 0) as [G|G]; [|reflexivity]. rewrite F, G in H1. lra.
  - do 10 right. left. unfold resistance, xp_r. unfold zero_c in H0. rewrite H0. cbn [fst snd]. destruct (Req_EM_T 0 0) as [|X]; [reflexivity|contradiction].
  - unfold xp_c; auto 20.
  - unfold xp_c; auto 20.
Qed.
Lemma has_resistance : forall e, exists c d k, element_has e (str "r") c d k.
Proof.
  intros e. destruct (q_adm e) as [a b] eqn:E.
  destruct (Req_EM_T (a * a + b * b) 0) as [Z|Z].
  - exists (MAXDBL, 0), mtREAL, 20. apply has_r0. unfold zero_c. rewrite E. f_equal; nra.
  - exists (cinv (q_adm e)), mtMAG, 20. apply has_r; rewrite E; unfold cinv; cbn [fst snd]; field; assumption.
Qed.
Lemma entry_has : forall e n xp, In (n, xp) (element_table e) -> exists c d k, element_has e n c d k.
Proof.
  intros e n xp H. unfold element_table in H. cbn [In] in H. pose proof (has_resistance e) as Hr.
  repeat (destruct H as [H|H]; [injection H as <- _; first [exact Hr|do 3 eexists; first [apply has_v; cbn; auto 6; fail|apply has_vin|apply has_i|apply has_p|apply has_nv|apply has_ev|apply has_y|apply has_z|apply has_zraw]]|]). contradiction.
Qed.

(* a name of an element, with the letter of a part and db after it or without, prints that part of
   the quantity, in decibels or not; any other text prints nothing. The default part and the size of a
   decibel are those of the quantity. *)
Theorem C76_element : forall ci opt e w, ident w -> (length w <= 256)%nat ->
  exists s, ac_probe_num ci opt (element_ext ci e) w = Some s /\
    (forall n c d k m db, element_has e n c d k -> reads ci w n m db -> prints opt c d k m db s) /\
    ((forall n c d k m db, element_has e n c d k -> ~ reads ci w n m db) -> s = Not_valid).
Proof.
  intros ci opt e w I L. destruct (ac_reads ci opt _ _ (element_table_ok e) (element_finds ci e) w I L) as (s & E & A & B).
  exists s. split; [assumption|]. split.
  - intros n c d k m db H R. destruct (has_entry _ _ _ _ _ H) as (Hi & Hd & Hk). rewrite (A _ _ _ _ Hi R). now apply show_prints.
  - intros N. apply B. intros n xp m db Hi R. destruct (entry_has _ _ _ Hi) as (c & d & k & H). exact (N _ _ _ _ _ _ H R).
Qed.
(* the same for a node, which knows v and z *)
Theorem C76_node : forall ci opt v z w, ident w -> (length w <= 256)%nat ->
  exists s, ac_probe_num ci opt (node_ext ci v z) w = Some s /\
    (forall m db, reads ci w (str "v") m db -> prints opt v mtMAG 20 m db s) /\
    (forall m db, reads ci w (str "z") m db -> prints opt z mtMAG 20 m db s) /\
    ((forall m db, ~ reads ci w (str "v") m db /\ ~ reads ci w (str "z") m db) -> s = Not_valid).
Proof.
  intros ci opt v z w I L. destruct (ac_reads ci opt _ _ (node_table_ok v z) (node_finds ci v z) w I L) as (s & E & A & B).
  exists s. split; [assumption|]. split; [|split].
  - intros m db R. rewrite (A (str "v") (xp_c v) m db); [|now left|assumption]. apply show_prints; [discriminate|lra].
  - intros m db R. rewrite (A (str "z") (xp_c z) m db); [|right; now left|assumption]. apply show_prints; [discriminate|lra].
  - intros N. apply B. intros n xp m db Hi R. unfold node_table in Hi. cbn [In] in Hi. destruct Hi as [H|[H|[]]]; injection H as <- _; destruct (N m db); contradiction.
Qed.
(* what is printed for the four letters fits together: magnitude and phase, and real and imaginary
   part, are two ways of writing one number; and that number has no other phase in the range printed *)
Theorem C76_polar : forall ci opt e n c d k wm wp wr wi a p x y, element_has e n c d k ->
  Forall ident [wm; wp; wr; wi] -> Forall (fun w => (length w <= 256)%nat) [wm; wp; wr; wi] ->
  reads ci wm n mtMAG false -> reads ci wp n mtPHASE false -> reads ci wr n mtREAL false -> reads ci wi n mtIMAG false ->
  ac_probe_num ci opt (element_ext ci e) wm = Some (Value a) -> ac_probe_num ci opt (element_ext ci e) wp = Some (Value p) ->
  ac_probe_num ci opt (element_ext ci e) wr = Some (Value x) -> ac_probe_num ci opt (element_ext ci e) wi = Some (Value y) ->
  c = (x, y) /\ 0 <= a /\ x = a * cos (angle opt p) /\ y = a * sin (angle opt p) /\ in_turn opt p /\
  (forall p', a <> 0 -> in_turn opt p' -> x = a * cos (angle opt p') -> y = a * sin (angle opt p') -> p' = p).
Proof.
  intros ci opt e n c d k wm wp wr wi a p x y H FI FL Rm Rp Rr Ri Em Ep Er Ei.
  assert (G : forall w m r, ident w -> (length w <= 256)%nat -> m <> mtNONE -> reads ci w n m false -> ac_probe_num ci opt (element_ext ci e) w = Some (Value r) -> is_part opt c m r).
  { intros w m r I L Nm R E. destruct (C76_element ci opt e w I L) as (s & E1 & P & _). specialize (P _ _ _ _ _ _ H R). destruct P as (u & r1 & U & -> & ->).
    rewrite E in E1. injection E1 as ->. destruct m; [contradiction|exact U..]. }
  apply Forall_cons_iff in FI. destruct FI as [I1 FI]. apply Forall_cons_iff in FI. destruct FI as [I2 FI]. apply Forall_cons_iff in FI. destruct FI as [I3 FI]. apply Forall_cons_iff in FI. destruct FI as [I4 _].
  apply Forall_cons_iff in FL. destruct FL as [L1 FL]. apply Forall_cons_iff in FL. destruct FL as [L2 FL]. apply Forall_cons_iff in FL. destruct FL as [L3 FL]. apply Forall_cons_iff in FL. destruct FL as [L4 _].
  assert (HM : is_part opt c mtMAG a) by (eapply (G wm); eauto; discriminate). assert (HP : is_part opt c mtPHASE p) by (eapply (G wp); eauto; discriminate).
  assert (HX : is_part opt c mtREAL x) by (eapply (G wr); eauto; discriminate). assert (HY : is_part opt c mtIMAG y) by (eapply (G wi); eauto; discriminate).
  cbn [is_part] in HX, HY. destruct HM as [A0 A]. pose proof HP as HP0. destruct HP as (T & b & B & X & Y).
  assert (E2 : a * a = b * b).
  { rewrite A, X, Y. pose proof (sin2_cos2 (angle opt p)) as Q. unfold Rsqr in Q.
    replace (b * cos (angle opt p) * (b * cos (angle opt p)) + b * sin (angle opt p) * (b * sin (angle opt p))) with (b * b * (sin (angle opt p) * sin (angle opt p) + cos (angle opt p) * cos (angle opt p))) by ring. rewrite Q. ring. }
  assert (a = b) by nra. subst b. split; [rewrite HX, HY; now destruct c|]. split; [assumption|]. split; [congruence|]. split; [congruence|]. split; [assumption|].
  intros p' Nz T' X' Y'. apply (part_unique opt c mtPHASE p' p); [|split; [assumption|]; exists a; repeat split; congruence|exact HP0].
  intros Z. rewrite Z in A. cbn [fst snd] in A. nra.
Qed.

(* a printed number is the computed one if that is 1 or more, else the nearest whole multiple of the
   option floor; printing it again changes nothing *)
Lemma grid : forall q x, 0 < q -> exists n : Z, to_grid q x = IZR n * q /\ IZR n * q - x <= q / 2 /\ - (q / 2) < IZR n * q - x.
Proof.
  intros q x Q. exists (Int_part (x / q + / 2)). split; [reflexivity|]. destruct (base_Int_part (x / q + / 2)) as [A B].
  set (n := IZR (Int_part (x / q + / 2))) in *. clearbody n. assert (E : x = x / q * q) by (field; lra). set (t := x / q) in *. clearbody t. subst x. split; nra.
Qed.
Lemma grid_nearest : forall q x (n m : Z), 0 < q -> IZR n * q - x <= q / 2 -> - (q / 2) < IZR n * q - x -> Rabs (IZR n * q - x) <= Rabs (IZR m * q - x).
Proof.
  intros q x n m Q A B. assert (An : Rabs (IZR n * q - x) <= q / 2) by (apply Rabs_le; lra).
  destruct (Z.eq_dec m n) as [->|N]; [lra|].
  assert (D : IZR m <= IZR n - 1 \/ IZR n + 1 <= IZR m).
  { destruct (Z.lt_ge_cases m n) as [L|L]; [left; rewrite <- minus_IZR; apply IZR_le; lia|right; rewrite <- plus_IZR; apply IZR_le; lia]. }
  destruct D as [D|D].
  - assert (IZR m * q - x <= - (q / 2)) by nra. rewrite (Rabs_left1 (IZR m * q - x)) by lra. lra.
  - assert (q / 2 <= IZR m * q - x) by nra. rewrite (Rabs_pos_eq (IZR m * q - x)) by lra. lra.
Qed.
Lemma grid_fix : forall q (n : Z), 0 < q -> to_grid q (IZR n * q) = IZR n * q.
Proof.
  intros q n Q. destruct (grid q (IZR n * q) Q) as (k & E & A & B). rewrite E. f_equal.
  assert (U : IZR (k - n) < 1) by (rewrite minus_IZR; nra). assert (V : -1 < IZR (k - n)) by (rewrite minus_IZR; nra).
  apply lt_IZR in U. apply lt_IZR in V. f_equal. lia.
Qed.
Theorem C76_rounded : forall floor x, 0 < floor ->
  (1 <= Rabs x -> probe_num floor x = x) /\
  (Rabs x < 1 -> exists n : Z, probe_num floor x = IZR n * floor /\ forall m : Z, Rabs (IZR n * floor - x) <= Rabs (IZR m * floor - x)) /\
  Rabs (probe_num floor x - x) <= floor / 2 /\
  probe_num floor (probe_num floor x) = probe_num floor x.
Proof.
  intros q x Q. destruct (grid q x Q) as (n & E & A & B). unfold probe_num at 1 2 3 5 6. destruct (Rle_dec 1 (Rabs x)) as [L|L].
  - split; [reflexivity|]. split; [lra|]. split; [unfold Rminus; rewrite Rplus_opp_r, Rabs_R0; lra|]. unfold probe_num. destruct (Rle_dec 1 (Rabs x)); [reflexivity|contradiction].
  - split; [lra|]. split; [|split].
    + intros _. exists n. split; [assumption|]. intros m. now apply grid_nearest.
    + rewrite E. apply Rabs_le. lra.
    + unfold probe_num. rewrite E. destruct (Rle_dec 1 (Rabs (IZR n * q))); [reflexivity|]. now apply grid_fix.
Qed.
(* greater numbers never print as smaller ones, if 1 is a whole multiple of the option *)
Theorem C76_order : forall floor (k : Z) x y, 0 < floor -> IZR k * floor = 1 -> x <= y -> probe_num floor x <= probe_num floor y.
Proof.
  intros q k x y Q K L. destruct (grid q x Q) as (n & E & A & B), (grid q y Q) as (m & E2 & A2 & B2). unfold probe_num.
  assert (Up : forall t (j : Z), t < 1 -> IZR j * q - t <= q / 2 -> IZR j * q <= 1).
  { intros t j T H. destruct (Z.le_gt_cases j k) as [G|G]; [apply IZR_le in G; nra|]. exfalso. assert (k + 1 <= j)%Z as G2 by lia. apply IZR_le in G2. rewrite plus_IZR in G2. nra. }
  assert (Dn : forall t (j : Z), -1 < t -> - (q / 2) < IZR j * q - t -> -1 <= IZR j * q).
  { intros t j T H. destruct (Z.le_gt_cases (- k) j) as [G|G]; [apply IZR_le in G; rewrite opp_IZR in G; nra|]. exfalso. assert (j <= - k - 1)%Z as G2 by lia. apply IZR_le in G2. rewrite minus_IZR, opp_IZR in G2. nra. }
  destruct (Rle_dec 1 (Rabs x)) as [X|X], (Rle_dec 1 (Rabs y)) as [Y|Y].
  - assumption.
  - rewrite E2. assert (-1 < y < 1) by (split; [|]; revert Y; unfold Rabs; destruct (Rcase_abs y); lra).
    assert (x <= -1) by (revert X; unfold Rabs; destruct (Rcase_abs x); lra). pose proof (Dn y m ltac:(lra) B2). lra.
  - rewrite E. assert (-1 < x < 1) by (split; [|]; revert X; unfold Rabs; destruct (Rcase_abs x); lra).
    assert (1 <= y) by (revert Y; unfold Rabs; destruct (Rcase_abs y); lra). pose proof (Up x n ltac:(lra) A). lra.
  - rewrite E, E2. destruct (Z.le_gt_cases n m) as [G|G]; [apply IZR_le in G; nra|]. exfalso. assert (m + 1 <= n)%Z as G2 by lia. apply IZR_le in G2. rewrite plus_IZR in G2. nra.
Qed.
(* a node voltage prints within half of each of the two options *)
Theorem C76_node_voltage : forall floor vfloor v, 0 < floor -> 0 < vfloor -> Rabs (node_v floor vfloor v - v) <= floor / 2 + vfloor / 2.
Proof.
  intros q p v Q P. unfold node_v. destruct (grid p v P) as (n & E & A & B). rewrite E.
  destruct (C76_rounded q (IZR n * p) Q) as (_ & _ & C & _). revert C. generalize (probe_num q (IZR n * p)). intros r C.
  replace (r - v) with ((r - IZR n * p) + (IZR n * p - v)) by ring. eapply Rle_trans; [apply Rabs_triang|]. assert (Rabs (IZR n * p - v) <= p / 2) by (apply Rabs_le; lra). lra.
Qed.

(* ---- what goes wrong ---- *)
(* a name of more than 256 characters is written past the end of a buffer *)
Theorem C76_long_name_refuted : exists w, ident w /\ (forall ci opt e, ac_probe_num ci opt (element_ext ci e) w = None).
Proof.
  exists (repeat "v"%char 257). split; [|intros; vm_compute; reflexivity].
  split; [discriminate|]. apply Forall_forall. intros c H. apply repeat_spec in H. subst c. split; [split; [discriminate|]; cbn; intuition discriminate|]. split; [reflexivity|]. cbn. intuition discriminate.
Qed.
(* the order of two numbers can turn around when 1 is not a whole multiple of the option floor *)
Theorem C76_order_refuted : exists floor x y, 0 < floor /\ x < y /\ probe_num floor y < probe_num floor x.
Proof.
  exists (6 / 10), (95 / 100), 1. split; [lra|]. split; [lra|].
  destruct (C76_rounded (6 / 10) 1 ltac:(lra)) as (A & _). rewrite A by (rewrite Rabs_pos_eq; lra).
  unfold probe_num. destruct (Rle_dec 1 (Rabs (95 / 100))) as [X|X]; [rewrite Rabs_pos_eq in X; lra|].
  destruct (grid (6 / 10) (95 / 100) ltac:(lra)) as (n & E & U & V). rewrite E.
  assert (1 < n)%Z by (apply lt_IZR; lra). assert (2 <= n)%Z as H2 by lia. apply IZR_le in H2. lra.
Qed.

(* ---- examples ---- *)
(* the names V2 of a resistor carrying 3+4j volts: VM, vdb, vp, ir; capitals count when letters of
   either case are the same *)
Definition e0 : quantities := Qu (3, 4) (3, 4) (1, 2) 5 (5, 0) (2, 0) (1, 1) (1, 1).
Example ex_C76_names : reads true (str "VoutP") (str "vout") mtPHASE false /\ reads true (str "vDB") (str "v") mtNONE true /\
  reads false (str "prdb") (str "p") mtREAL true /\ element_has e0 (str "p") (11, -2) mtREAL 10 /\ ident (str "VoutP").
Proof.
  split; [|split; [|split; [|split]]].
  - repeat constructor; try (left; reflexivity); right; split; reflexivity.
  - repeat constructor; try (left; reflexivity); right; split; reflexivity.
  - repeat constructor.
  - replace (11, -2) with (fst (q_vout e0) * fst (q_amps e0) + snd (q_vout e0) * snd (q_amps e0), snd (q_vout e0) * fst (q_amps e0) - fst (q_vout e0) * snd (q_amps e0)) by (cbn; f_equal; ring). apply has_p.
  - split; [discriminate|]. apply Forall_forall. intros c H. cbn in H. repeat (destruct H as [<-|H]; [split; [split; [discriminate|]; cbn; intuition discriminate|]; split; [reflexivity|]; cbn; intuition discriminate|]). contradiction.
Qed.
(* and what they print: magnitude 5, in decibels r with 10^(r/20) = 5 *)
Example ex_C76_prints : ac_probe_num true pDEGREES (element_ext true e0) (str "VM") = Some (Value (cabs (3, 4))) /\ cabs (3, 4) = 5 /\
  ac_probe_num true pDEGREES (element_ext true e0) (str "prdb") = Some (Value (10 * log10 (Rmax (3 * 1 - 4 * - 2) VOLTMIN))) /\
  ac_probe_num true pDEGREES (element_ext true e0) (str "q") = Some Not_valid.
Proof.
  split; [reflexivity|]. split; [|split; reflexivity]. unfold cabs. cbn [fst snd]. replace (3 * 3 + 4 * 4) with (5 * 5) by ring. apply sqrt_square. lra.
Qed.
Example ex_C76_rounded : probe_num (1 / 8) (3 / 10) = 2 * (1 / 8) /\ IZR 8 * (1 / 8) = 1.
Proof.
  split; [|lra]. unfold probe_num. destruct (Rle_dec 1 (Rabs (3 / 10))) as [X|X]; [rewrite Rabs_pos_eq in X; lra|].
  destruct (grid (1 / 8) (3 / 10) ltac:(lra)) as (n & E & U & V). rewrite E.
  assert (n < 3)%Z by (apply lt_IZR; lra). assert (1 < n)%Z by (apply lt_IZR; lra). assert (n = 2)%Z as -> by lia. lra.
Qed.

Print Assumptions C76_element.
Print Assumptions C76_node.
Print Assumptions C76_polar.
Print Assumptions C76_rounded.
Print Assumptions C76_order.
Print Assumptions C76_node_voltage.
Print Assumptions C76_long_name_refuted.
Print Assumptions C76_order_refuted.
