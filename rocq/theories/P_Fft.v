(* C43: the fast Fourier transform. *)
Require Import ZArith List Lia Bool Field Reals Lra.
Require Import ZifyBool.
Require Import Verif.Loops Verif.FieldSums Verif.Fft_Model Verif.Fft_Proofs.
Import ListNotations.
Local Open Scope Z_scope.

(* The transform over any exact field, whatever the factors, as long as they are powers of roots
   of unity: for every length that is a power of two (up to 2^29, beyond which int overflows) it
   ends, stays inside the array, and leaves at each place the sum that defines the discrete
   Fourier transform, in natural order; divided by the length in the forward direction only. *)
Theorem C43_fft_any_field : forall (K : fld) (W : bool -> Z -> Z -> F K) (k : nat) (inv : bool) (x : Z -> F K),
  (k <= 29)%nat ->
  (forall j a b, (j <= k)%nat -> W inv (2 ^ Z.of_nat j) (a + b) = fmul K (W inv (2 ^ Z.of_nat j) a) (W inv (2 ^ Z.of_nat j) b)) ->
  (forall j a, (j < k)%nat -> W inv (2 ^ Z.of_nat (S j)) (2 * a) = W inv (2 ^ Z.of_nat j) a) ->
  (forall j, (j < k)%nat -> W inv (2 ^ Z.of_nat (S j)) (2 ^ Z.of_nat j) = fopp K (f1 K)) ->
  (forall a, W inv 1 a = f1 K) ->
  let n := 2 ^ Z.of_nat k in
  exists y, fft K W n inv x = Some y /\
    forall i, 0 <= i < n ->
      let s := fsum K 0 n (fun m => fmul K (x m) (W inv n (m * i))) in
      y i = if inv then s else fdiv K s (of_Z K n).
Proof.
  intros K W k inv x Hk H1 H2 H3 H4 n.
  assert (R : roots K k (W inv)) by (repeat split; assumption).
  destruct (fft_ok K W k inv x Hk R) as (y & Ey & Hy). exists y. split; [exact Ey|]. exact Hy.
Qed.
Print Assumptions C43_fft_any_field.

(* a case: the field of five elements, in which 2 and 3 are fourth roots of one *)
Inductive five := n0 | n1 | n2 | n3 | n4.
Definition five_Z (a : five) : Z := match a with n0 => 0 | n1 => 1 | n2 => 2 | n3 => 3 | n4 => 4 end.
Definition Z_five (z : Z) : five :=
  match z mod 5 with 0 => n0 | 1 => n1 | 2 => n2 | 3 => n3 | _ => n4 end.
Definition five_add a b := Z_five (five_Z a + five_Z b).
Definition five_mul a b := Z_five (five_Z a * five_Z b).
Definition five_opp a := Z_five (- five_Z a).
Definition five_inv a := Z_five (five_Z a ^ 3).
Definition Fld5 : fld.
Proof.
  refine (mkfld five n0 n1 five_add five_mul (fun a b => five_add a (five_opp b)) five_opp
    (fun a b => five_mul a (five_inv b)) five_inv _ (fun a => match a with n0 => true | _ => false end) _).
  - constructor.
    + constructor; intros; repeat match goal with a : five |- _ => destruct a end; reflexivity.
    + discriminate.
    + reflexivity.
    + intros p H. destruct p; try reflexivity. now elim H.
  - intros []; split; congruence.
Defined.
Definition W5 (inv : bool) (n m : Z) : five := Z_five ((if inv then 2 else 3) ^ ((m * (4 / n)) mod 4)).
Example fft_of_four : exists y, fft Fld5 W5 4 false (fun i => Z_five (i * i + 1)) = Some y /\
  map y [0; 1; 2; 3] = [n2; n3; n1; n0] /\
  exists z, fft Fld5 W5 4 true y = Some z /\ map z [0; 1; 2; 3] = [n1; n2; n0; n0].
Proof. eexists. split; [vm_compute; reflexivity|]. split; [vm_compute; reflexivity|]. eexists. split; vm_compute; reflexivity. Qed.
Example roots_of_four : forall inv,
  (forall j a b, (j <= 2)%nat -> W5 inv (2 ^ Z.of_nat j) (a + b) = fmul Fld5 (W5 inv (2 ^ Z.of_nat j) a) (W5 inv (2 ^ Z.of_nat j) b)) /\
  (forall j a, (j < 2)%nat -> W5 inv (2 ^ Z.of_nat (S j)) (2 * a) = W5 inv (2 ^ Z.of_nat j) a) /\
  (forall j, (j < 2)%nat -> W5 inv (2 ^ Z.of_nat (S j)) (2 ^ Z.of_nat j) = fopp Fld5 (f1 Fld5)) /\
  (forall a, W5 inv 1 a = f1 Fld5).
Proof.
  assert (P : forall inv a b, Z_five ((if inv : bool then 2 else 3) ^ ((a + b) mod 4)) =
     five_mul (Z_five ((if inv then 2 else 3) ^ (a mod 4))) (Z_five ((if inv then 2 else 3) ^ (b mod 4)))).
  { intros inv a b. rewrite Z.add_mod by lia.
    pose proof (Z.mod_pos_bound a 4 ltac:(lia)). pose proof (Z.mod_pos_bound b 4 ltac:(lia)).
    assert (Ca : a mod 4 = 0 \/ a mod 4 = 1 \/ a mod 4 = 2 \/ a mod 4 = 3) by lia.
    assert (Cb : b mod 4 = 0 \/ b mod 4 = 1 \/ b mod 4 = 2 \/ b mod 4 = 3) by lia.
    destruct Ca as [-> | [-> | [-> | ->]]]; destruct Cb as [-> | [-> | [-> | ->]]]; destruct inv; reflexivity. }
  intros inv. split; [|split; [|split]].
  - intros j a b Hj. unfold W5. rewrite Z.mul_add_distr_r. apply P.
  - intros j a Hj. unfold W5. f_equal. f_equal. destruct j as [|[|j]]; [..|lia];
    [change (4 / 2 ^ Z.of_nat 1) with 2; change (4 / 2 ^ Z.of_nat 0) with 4|change (4 / 2 ^ Z.of_nat 2) with 1; change (4 / 2 ^ Z.of_nat 1) with 2]; f_equal; lia.
  - intros j Hj. destruct j as [|[|j]]; [..|lia]; destruct inv; reflexivity.
  - intros a. unfold W5. change (4 / 1) with 4. rewrite Z.mod_mul by lia. destruct inv; reflexivity.
Qed.

(* ---------- the complex numbers ---------- *)
Local Open Scope R_scope.
Definition cadd (a b : R * R) : R * R := (fst a + fst b, snd a + snd b).
Definition cmul (a b : R * R) : R * R := (fst a * fst b - snd a * snd b, fst a * snd b + snd a * fst b).
Definition copp (a : R * R) : R * R := (- fst a, - snd a).
Definition csub (a b : R * R) : R * R := (fst a - fst b, snd a - snd b).
Definition cnorm (a : R * R) : R := fst a * fst a + snd a * snd a.
Definition cinv (a : R * R) : R * R := (fst a / cnorm a, - snd a / cnorm a).
Definition cdiv (a b : R * R) : R * R := cmul a (cinv b).
Lemma cnorm_0 : forall a, a <> (0, 0) -> cnorm a <> 0.
Proof.
  intros [a b] H E. unfold cnorm in E. cbn in E.
  assert (a = 0) by nra. assert (b = 0) by nra. subst. now apply H.
Qed.
Definition CFld : fld.
Proof.
  refine (mkfld (R * R) (0, 0) (1, 0) cadd cmul csub copp cdiv cinv _
    (fun a => if Req_EM_T (fst a) 0 then if Req_EM_T (snd a) 0 then true else false else false) _).
  - constructor.
    + constructor; intros; repeat match goal with a : (R * R)%type |- _ => destruct a end; unfold cadd, cmul, csub, copp; cbn [fst snd]; f_equal; ring.
    + intros E. inversion E. lra.
    + reflexivity.
    + intros p H. pose proof (cnorm_0 p H) as N. destruct p as [a b]. unfold cmul, cinv, cnorm in *. cbn [fst snd] in *. f_equal; field; assumption.
  - intros [a b]. cbn [fst snd]. destruct (Req_EM_T a 0), (Req_EM_T b 0); split; congruence.
Defined.

(* the factor computed by lib/m_fft.cc:33-36, with exact cos and sin *)
Definition cis (inv : bool) (n m : Z) : R * R :=
  (cos (IZR m * (2 * PI / IZR n)), (if inv then 1 else -1) * sin (IZR m * (2 * PI / IZR n))).

Lemma cis_add : forall inv n a b, cis inv n (a + b) = cmul (cis inv n a) (cis inv n b).
Proof.
  intros inv n a b. unfold cis, cmul. cbn [fst snd]. rewrite plus_IZR, Rmult_plus_distr_r, cos_plus, sin_plus.
  destruct inv; f_equal; ring.
Qed.
Lemma cis_double : forall inv n a, (0 < n)%Z -> cis inv (2 * n) (2 * a) = cis inv n a.
Proof.
  intros inv n a H. unfold cis. assert (IZR n <> 0) by (apply not_0_IZR; lia).
  rewrite !mult_IZR. replace (2 * IZR a * (2 * PI / (2 * IZR n))) with (IZR a * (2 * PI / IZR n)) by (field; assumption). reflexivity.
Qed.
Lemma cis_half : forall inv n, (0 < n)%Z -> cis inv (2 * n) n = copp (1, 0).
Proof.
  intros inv n H. unfold cis, copp. assert (IZR n <> 0) by (apply not_0_IZR; lia).
  rewrite mult_IZR. replace (IZR n * (2 * PI / (2 * IZR n))) with PI by (field; assumption).
  rewrite cos_PI, sin_PI. cbn [fst snd]. f_equal; ring.
Qed.
Lemma cis_1 : forall inv a, cis inv 1 a = (1, 0).
Proof.
  intros inv a. unfold cis. replace (IZR a * (2 * PI / 1)) with (2 * IZR a * PI) by field.
  assert (E : forall z, cos (2 * IZR z * PI) = 1 /\ sin (2 * IZR z * PI) = 0).
  { intros z. assert (S0 : sin (IZR z * PI) = 0) by (apply sin_eq_0_1; now exists z).
    replace (2 * IZR z * PI) with (2 * (IZR z * PI)) by ring. rewrite sin_2a, cos_2a_sin, S0. split; ring. }
  destruct (E a) as [-> ->]. f_equal; ring.
Qed.
Lemma cis_roots : forall k inv, roots CFld k (cis inv).
Proof.
  intros k inv. repeat split.
  - intros. apply cis_add.
  - intros j a _. rewrite p2_S. apply cis_double. apply p2_pos.
  - intros j _. rewrite p2_S. apply cis_half. apply p2_pos.
  - intros a. apply cis_1.
Qed.
Lemma of_Z_C : forall n, (0 <= n)%Z -> of_Z CFld n = (IZR n, 0).
Proof.
  unfold of_Z. apply natlike_ind; [reflexivity|].
  intros n Hn IH. unfold Z.succ. rewrite fsum_snoc by assumption. rewrite IH. cbn. unfold cadd. cbn [fst snd].
  rewrite plus_IZR. f_equal; ring.
Qed.

(* With exact complex numbers and exact cos and sin, the result at place i is the discrete Fourier
   transform of the input: the sum of x[m] * exp(-+ 2 pi i m / n), divided by n when forward. *)
Theorem C43_fft_is_dft : forall (k : nat) (inv : bool) (x : Z -> R * R), (k <= 29)%nat ->
  let n := (2 ^ Z.of_nat k)%Z in
  exists y, fft CFld cis n inv x = Some y /\
    forall i, (0 <= i < n)%Z ->
      let angle m := 2 * PI * IZR m * IZR i / IZR n in
      let s := if inv then 1 else -1 in
      let scale := if inv then 1 else / IZR n in
      fst (y i) = scale * fst (fsum CFld 0 n (fun m => cmul (x m) (cos (angle m), s * sin (angle m)))) /\
      snd (y i) = scale * snd (fsum CFld 0 n (fun m => cmul (x m) (cos (angle m), s * sin (angle m)))).
Proof.
  intros k inv x Hk n. destruct (fft_ok CFld cis k inv x Hk (cis_roots k inv)) as (y & Ey & Hy).
  exists y. split; [exact Ey|]. intros i Hi angle s scale. rewrite Hy by assumption. cbv zeta.
  change (p2 k) with n in *.
  assert (Hn : (0 < n)%Z) by apply p2_pos. assert (Nn : IZR n <> 0) by (apply not_0_IZR; lia).
  assert (E : fsum CFld 0 n (fun m => fmul CFld (x m) (cis inv n (m * i))) =
              fsum CFld 0 n (fun m => cmul (x m) (cos (angle m), s * sin (angle m)))).
  { apply fsum_ext. intros m Hm. cbn [fmul CFld]. unfold cis, angle, s.
    replace (IZR (m * i) * (2 * PI / IZR n)) with (2 * PI * IZR m * IZR i / IZR n) by (rewrite mult_IZR; field; assumption).
    reflexivity. }
  rewrite E. unfold scale. destruct inv; [split; ring|].
  set (q := fsum CFld 0 n _). change (fdiv CFld q (of_Z CFld n)) with (cdiv q (of_Z CFld n)).
  rewrite of_Z_C by lia. unfold cdiv, cmul, cinv, cnorm. cbn [fst snd].
  split; field; assumption.
Qed.
Print Assumptions C43_fft_is_dft.

(* the inverse transform undoes the forward one, and the other way round *)
Theorem C43_inverse : forall (k : nat) (first : bool) (x : Z -> R * R), (k <= 29)%nat ->
  let n := (2 ^ Z.of_nat k)%Z in
  exists y z, fft CFld cis n first x = Some y /\ fft CFld cis n (negb first) y = Some z /\
    forall i, (0 <= i < n)%Z -> z i = x i.
Proof.
  intros k first x Hk n. pose proof (p2_pos k) as Hp. change (p2 k) with n in *.
  assert (Nn : IZR n <> 0) by (apply not_0_IZR; lia).
  destruct (fft_ok CFld cis k first x Hk (cis_roots k first)) as (y & Ey & Hy).
  destruct (fft_ok CFld cis k (negb first) y Hk (cis_roots k (negb first))) as (z & Ez & Hz).
  exists y, z. split; [exact Ey|]. split; [exact Ez|]. intros i Hi. change (p2 k) with n in *.
  assert (U : forall b a, cmul (cis b n a) (cis (negb b) n a) = (1, 0)).
  { intros b a. unfold cis, cmul. cbn [fst snd]. set (t := IZR a * _). pose proof (sin2_cos2 t) as S. unfold Rsqr in S.
    destruct b; cbn [negb]; f_equal; try ring; lra. }
  pose proof (dft_dft CFld k (cis first) (cis (negb first)) x i (cis_roots k first) (cis_roots k (negb first))
    (fun a => U first a) Hi) as D. change (p2 k) with n in D.
  assert (Nc : of_Z CFld n <> f0 CFld) by (rewrite of_Z_C by lia; intros X; inversion X; contradiction).
  rewrite Hz by assumption. cbv zeta. destruct first; cbn [negb] in *.
  - assert (E : fsum CFld 0 n (fun m => fmul CFld (y m) (cis false n (m * i))) = fmul CFld (of_Z CFld n) (x i)).
    { rewrite <- D. apply fsum_ext. intros m Hm. rewrite Hy by assumption. reflexivity. }
    rewrite E. pose proof (fmul_inv CFld (x i) (of_Z CFld n) Nc) as G.
    rewrite <- G at 2. rewrite of_Z_C by lia. destruct (x i) as [a b]. cbn. unfold cdiv, cmul, cinv, cnorm. cbn [fst snd]. f_equal; field; assumption.
  - assert (E : fsum CFld 0 n (fun m => fmul CFld (y m) (cis true n (m * i))) =
                fdiv CFld (fmul CFld (of_Z CFld n) (x i)) (of_Z CFld n)).
    { rewrite <- D. cbn [fdiv CFld]. unfold cdiv. change cmul with (fmul CFld) at 1.
      rewrite <- fsum_scale_r. apply fsum_ext. intros m Hm. rewrite Hy by assumption.
      cbn [fdiv CFld]. unfold cdiv. cbn [fmul CFld].
      set (p := fsum CFld 0 n _). set (q := cis true n (m * i)). set (r := cinv _).
      destruct p, q, r. unfold cmul. cbn [fst snd]. f_equal; ring. }
    rewrite E. rewrite of_Z_C by lia. destruct (x i) as [a b]. cbn. unfold cdiv, cmul, cinv, cnorm. cbn [fst snd]. f_equal; field; assumption.
Qed.
Print Assumptions C43_inverse.
