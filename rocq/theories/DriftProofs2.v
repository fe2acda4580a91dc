(** Exactly stored rotations, points, and what fails. *)
From Coq Require Import Psatz.
From Flocq Require Import Core BinarySingleNaN.
From Verif Require Import Cpp FloatModel FloatSpec FloatProofs NrmSpec NrmProofs Vec RotSpec RotProofs CoeffProofs DriftModel DriftSpec DriftProofs.
Local Open Scope R_scope.

(** ** Points *)
Lemma pose_acts e x p v w : every (pose_stands_for e) x -> weight e x <= 1 / 10 -> reach x <= 2 ^ 900 -> pose_of (rmap g_pose x) p ->
  vfinite v -> norm (vval v) <= 2 ^ 900 -> fpose_act p v w ->
  vfinite w /\ norm (vsub (vval w) (vadd (mvec (fst (exact_pose (rmap g_exact x))) (vval v)) (snd (exact_pose (rmap g_exact x))))) <=
    (2 * weight e x + 2 * u) * reach x + (10 / 9 * bound e x + 8 * u) * norm (vval v).
Proof.
  intros H W L P Fv Nv (r & V & ->). destruct (posed e x H W L p P) as [Ft T].
  assert (Pw : 2 ^ 900 * 4 <= 2 ^ 995) by (change 995%nat with (900 + 95)%nat; rewrite pow_add; assert (1 <= 2 ^ 900) by (apply pow_R1_Rle; lra); nra).
  assert (Pv : 2 ^ 995 <= 2 ^ 1000) by (apply Rle_pow; [lra|lia]).
  assert (P1 : 1 <= 2 ^ 900) by (apply pow_R1_Rle; lra).
  assert (E0 : 0 <= e) by (apply (stands_pos e (rotations x)), every_rotations, H).
  pose proof (weight_operations e x E0) as Ox. pose proof (bound_operations e x E0) as Bx. pose proof (bound_pos e x E0) as B0.
  destruct (pose_rotation_close e x p H ltac:(lra) P) as (Fr & R & A). destruct (exact_reach _ _ H) as [_ N].
  pose proof (reach_big _ _ H) as Lx. pose proof small_len as HS. pose proof h_pos as Hp. pose proof u_pos as U. pose proof u_small as U1. pose proof h_1 as H1.
  assert (I9 : 0 < / 2 ^ 900) by (apply Rinv_0_lt_compat, pow_lt; lra).
  destruct (exact_pose (rmap g_exact x)) as [m t]. cbn [fst snd] in *. set (b9 := 2 ^ 900) in *. set (b5 := 2 ^ 995) in *. set (b10 := 2 ^ 1000) in *.
  destruct (rotated (frot p) m (10 / 9 * bound e x) v r Fr R A ltac:(lra) Fv ltac:(fold b5; lra) V) as [Fw D].
  set (lx := reach x) in *. set (wx := weight e x) in *. set (bx := bound e x) in *. set (n := norm (vval v)) in *. assert (N0 : 0 <= n) by apply norm_nonneg.
  assert (Kx : wx * lx <= 1 / 10 * lx) by (apply Rmult_le_compat_r; lra).
  pose proof (norm_near (vval (ftrans p)) t) as Na. assert (Na' : norm (vval (ftrans p)) <= 12 / 10 * lx) by lra.
  pose proof (norm_near (vval r) (mvec m (vval v))) as Nr. rewrite rot_norm in Nr by exact R. fold n in Nr.
  assert (K1 : bx * n <= 1 / 10 * n) by (apply Rmult_le_compat_r; lra). assert (K2 : u * n <= / 1000000 * n) by (apply Rmult_le_compat_r; lra).
  assert (K3 : u * / b9 <= u * lx) by (apply Rmult_le_compat_l; lra).
  assert (Nr' : norm (vval r) <= 12 / 10 * n + 7 * h) by lra.
  destruct (fvadd_error r (ftrans p) Fw Ft) as [Fs Ds]; [fold b10; lra|fold b10; lra|]. split; [exact Fs|].
  assert (Ds' : norm (vsub (vval (fvadd r (ftrans p))) (vadd (vval r) (vval (ftrans p)))) <= u * (12 / 10 * n + 7 * h + 12 / 10 * lx)).
  { eapply Rle_trans; [exact Ds|]. apply Rmult_le_compat_l; [lra|]. eapply Rle_trans; [apply norm_triangle|]. lra. }
  eapply Rle_trans; [apply (norm_triangle_sub _ (vadd (vval r) (vval (ftrans p))))|].
  assert (D1 : norm (vsub (vadd (vval r) (vval (ftrans p))) (vadd (mvec m (vval v)) t)) <= norm (vsub (vval r) (mvec m (vval v))) + norm (vsub (vval (ftrans p)) t)).
  { replace (vsub (vadd (vval r) (vval (ftrans p))) (vadd (mvec m (vval v)) t)) with (vadd (vsub (vval r) (mvec m (vval v))) (vsub (vval (ftrans p)) t)) by vring. apply norm_triangle. }
  assert (K4 : u * h <= h) by nra. assert (K5 : 0 <= u * n) by nra. assert (K6 : 0 <= u * lx) by nra. lra.
Qed.

(** ** Rotations that are stored exactly *)
Lemma squares (n : nat) : forall a b c : Z, (a * a + b * b + c * c = 4 ^ Z.of_nat n)%Z ->
  (Z.abs a = 2 ^ Z.of_nat n \/ a = 0)%Z /\ (Z.abs b = 2 ^ Z.of_nat n \/ b = 0)%Z /\ (Z.abs c = 2 ^ Z.of_nat n \/ c = 0)%Z.
Proof.
  induction n as [|n IH]; intros a b c H.
  - cbn in H. change (2 ^ Z.of_nat 0)%Z with 1%Z. assert (-1 <= a <= 1)%Z by nia. assert (-1 <= b <= 1)%Z by nia. assert (-1 <= c <= 1)%Z by nia. lia.
  - rewrite Nat2Z.inj_succ in *. rewrite Z.pow_succ_r in H by lia. rewrite Z.pow_succ_r by lia. specialize (IH (a / 2) (b / 2) (c / 2))%Z.
    pose proof (Z.div_mod a 2 ltac:(lia)) as A. pose proof (Z.div_mod b 2 ltac:(lia)) as B. pose proof (Z.div_mod c 2 ltac:(lia)) as C.
    pose proof (Z.mod_pos_bound a 2 ltac:(lia)) as A'. pose proof (Z.mod_pos_bound b 2 ltac:(lia)) as B'. pose proof (Z.mod_pos_bound c 2 ltac:(lia)) as C'.
    set (a' := (a / 2)%Z) in *. set (b' := (b / 2)%Z) in *. set (c' := (c / 2)%Z) in *. set (x := (a mod 2)%Z) in *. set (y := (b mod 2)%Z) in *. set (z := (c mod 2)%Z) in *.
    assert (X : (x = 0 \/ x = 1)%Z) by lia. assert (Y : (y = 0 \/ y = 1)%Z) by lia. assert (Z0 : (z = 0 \/ z = 1)%Z) by lia. clearbody a' b' c' x y z.
    assert (S : (4 * (a' * a' + b' * b' + c' * c' + a' * x + b' * y + c' * z) + (x * x + y * y + z * z) = 4 * 4 ^ Z.of_nat n)%Z) by (rewrite <- H, A, B, C; ring).
    assert (E : (x = 0 /\ y = 0 /\ z = 0)%Z).
    { destruct X as [-> | ->], Y as [-> | ->], Z0 as [-> | ->]; try (repeat split; reflexivity); exfalso; lia. }
    destruct E as (-> & -> & ->). destruct IH as (P & Q & R); [lia|]. lia.
Qed.
Lemma whole (x : f64) : exists k : Z, val x = IZR k * bpow radix2 (-1074).
Proof.
  pose proof (val_fmt x) as F. unfold fmt, generic_format in F. set (m := Ztrunc (scaled_mantissa radix2 (FLT_exp (-1074) 53) (val x))) in *.
  exists (m * 2 ^ (cexp radix2 (FLT_exp (-1074) 53) (val x) + 1074))%Z. rewrite F at 1. unfold F2R. cbn [Fnum Fexp].
  assert (-1074 <= cexp radix2 (FLT_exp (-1074) 53) (val x))%Z by (unfold cexp, FLT_exp; lia).
  rewrite mult_IZR. change 2%Z with (radix_val radix2) at 1. rewrite IZR_Zpower by lia. rewrite Rmult_assoc, <- bpow_plus. do 2 f_equal. lia.
Qed.
Lemma unit_row a b c : val a * val a + val b * val b + val c * val c = 1 ->
  (Rabs (val a) = 1 \/ val a = 0) /\ (Rabs (val b) = 1 \/ val b = 0) /\ (Rabs (val c) = 1 \/ val c = 0).
Proof.
  destruct (whole a) as [i A], (whole b) as [j B], (whole c) as [k C]. set (q := bpow radix2 (-1074)) in *.
  assert (Q : IZR (2 ^ 1074) * q = 1).
  { unfold q. change 2%Z with (radix_val radix2) at 1. rewrite IZR_Zpower by lia. rewrite <- bpow_plus. reflexivity. }
  intro H. assert (S : (i * i + j * j + k * k = 4 ^ 1074)%Z).
  { apply eq_IZR. rewrite !plus_IZR, !mult_IZR. change 4%Z with (2 * 2)%Z. rewrite Z.pow_mul_l, mult_IZR. rewrite A, B, C in H.
    assert (P : 0 < q) by apply bpow_gt_0. apply (Rmult_eq_reg_r (q * q)); [|nra].
    replace ((IZR i * IZR i + IZR j * IZR j + IZR k * IZR k) * (q * q)) with (IZR i * q * (IZR i * q) + IZR j * q * (IZR j * q) + IZR k * q * (IZR k * q)) by ring.
    rewrite H. replace (IZR (2 ^ 1074) * IZR (2 ^ 1074) * (q * q)) with ((IZR (2 ^ 1074) * q) * (IZR (2 ^ 1074) * q)) by ring. rewrite Q. ring. }
  change 1074%Z with (Z.of_nat 1074) in S. apply squares in S. change (Z.of_nat 1074) with 1074%Z in S.
  assert (G : forall z y : R, forall n : Z, z = IZR n * q -> (Z.abs n = 2 ^ 1074 \/ n = 0)%Z -> Rabs z = 1 \/ z = 0).
  { intros z y n -> [N| ->]; [left|right; ring]. rewrite Rabs_mult, <- abs_IZR, N, (Rabs_right q) by (apply Rle_ge, bpow_ge_0). exact Q. }
  destruct S as (S1 & S2 & S3). split; [|split]; eapply (G _ 0); eassumption.
Qed.
Lemma exact_entries a : is_rotation (mval a) ->
  a_sign (val (f00 a)) /\ a_sign (val (f01 a)) /\ a_sign (val (f02 a)) /\ a_sign (val (f10 a)) /\ a_sign (val (f11 a)) /\ a_sign (val (f12 a)) /\
  a_sign (val (f20 a)) /\ a_sign (val (f21 a)) /\ a_sign (val (f22 a)).
Proof.
  intro H. apply rot_mtrans_r in H. unfold mmul, mtrans, mval, mid in H. cbn [m00 m01 m02 m10 m11 m12 m20 m21 m22] in H.
  injection H as H0 _ _ _ H1 _ _ _ H2. apply unit_row in H0, H1, H2.
  assert (G : forall x, Rabs x = 1 \/ x = 0 -> a_sign x).
  { intros x [X| ->]; [|right; left; reflexivity]. unfold Rabs in X. destruct (Rcase_abs x); [left|right; right]; lra. }
  destruct H0 as (? & ? & ?), H1 as (? & ? & ?), H2 as (? & ? & ?). repeat split; apply G; assumption.
Qed.

(** ** Results exist *)
Lemma some_pose x : exists p, pose_of x p.
Proof.
  assert (V : forall a v, exists w, fmvec a v w).
  { intros a v. exists (FV (fadd (fadd (fmul (f00 a) (fx v)) (fmul (f01 a) (fy v))) (fmul (f02 a) (fz v))) (fadd (fadd (fmul (f10 a) (fx v)) (fmul (f11 a) (fy v))) (fmul (f12 a) (fz v)))
      (fadd (fadd (fmul (f20 a) (fx v)) (fmul (f21 a) (fy v))) (fmul (f22 a) (fz v)))). repeat split; apply sum_left. }
  induction x as [a|x [a A] y [b B]|x [a A]]; [exists a; constructor| |].
  - destruct (some_rotation (RProduct (RGiven (frot a)) (RGiven (frot b)))) as [c C]. inversion C as [|? ? a' b' c' Pa Pb M|]; subst. inversion Pa; inversion Pb; subst.
    destruct (V (frot a) (ftrans b)) as [w W]. exists (FP c (fvadd w (ftrans a))). eapply pose_product; [exact A|exact B|]. split; [exact M|]. exists w. split; [exact W|reflexivity].
  - destruct (V (fmtrans (frot a)) (fvneg (ftrans a))) as [w W]. exists (FP (fmtrans (frot a)) w). eapply pose_inverse; [exact A|]. split; [reflexivity|exact W].
Qed.

(** ** Lengths and right angles *)
Lemma orthogonal a r E : is_rotation r -> apart (mval a) r <= E -> apart (mmul (mtrans (mval a)) (mval a)) mid <= 2 * E + E * E.
Proof.
  intros R A. pose proof (apart_mmul (mtrans (mval a)) (mtrans r) (mval a) r (rot_mtrans r R) R) as H. rewrite (proj1 R), apart_mtrans in H.
  pose proof (apart_pos (mval a) r). nra.
Qed.

(** ** A rotation that drifts *)
Lemma rd_step k : (0 <= k < 2 ^ 51)%Z -> rd ((1 + IZR k * / 2 ^ 52) * (1 + / 2 ^ 52)) = 1 + IZR (k + 1) * / 2 ^ 52.
Proof.
  intros K. set (x := (1 + IZR k * / 2 ^ 52) * (1 + / 2 ^ 52)).
  assert (Kr : 0 <= IZR k <= IZR (2 ^ 51) - 1) by (rewrite <- minus_IZR; split; apply IZR_le; lia). change (IZR (2 ^ 51)) with (IZR 2251799813685248) in Kr.
  assert (P : 2 ^ 52 = 4503599627370496) by lra. assert (X : 1 <= x < 2) by (unfold x; rewrite P; nra).
  assert (M : mag radix2 x = 1%Z :> Z). { apply mag_unique. rewrite Rabs_right by lra. cbn. lra. }
  unfold rd, round, scaled_mantissa, F2R, cexp. rewrite M. change (FLT_exp (-1074) 53 1) with (-52)%Z. cbn [Fnum Fexp].
  replace (ZnearestE (x * bpow radix2 (- -52))) with (2 ^ 52 + (k + 1))%Z.
  - rewrite !plus_IZR. change (bpow radix2 (-52)) with (/ 4503599627370496). rewrite P. change (IZR (2 ^ 52)) with (IZR 4503599627370496). field.
  - symmetry. apply Znearest_imp. change (bpow radix2 (- -52)) with (IZR 4503599627370496). rewrite !plus_IZR. change (IZR (2 ^ 52)) with (IZR 4503599627370496). unfold x. rewrite P.
    replace ((1 + IZR k * / 4503599627370496) * (1 + / 4503599627370496) * 4503599627370496 - (4503599627370496 + (IZR k + 1))) with (IZR k * / 4503599627370496) by field.
    rewrite Rabs_right by lra. lra.
Qed.

Lemma val_fits (a : f64) : ~ overflows (val a).
Proof.
  unfold overflows. rewrite rd_id by apply val_fmt. pose proof (abs_B2R_lt_emax _ _ a) as H. fold (val a) in H. rewrite <- (bpow_pow 1024). intro K. change (Z.of_nat 1024) with 1024%Z in K. lra.
Qed.
Lemma add_zero a b : finite a -> finite b -> val a = 0 \/ val b = 0 -> finite (fadd a b) /\ val (fadd a b) = val a + val b.
Proof.
  intros A B Z. destruct (fadd_val a b A B) as [F V].
  - destruct Z as [-> | ->]; rewrite ?Rplus_0_l, ?Rplus_0_r; apply val_fits.
  - split; [exact F|]. rewrite V. apply rd_id. destruct Z as [-> | ->]; rewrite ?Rplus_0_l, ?Rplus_0_r; apply val_fmt.
Qed.
Lemma mul_zero a b : finite a -> finite b -> val a = 0 \/ val b = 0 -> finite (fmul a b) /\ val (fmul a b) = 0.
Proof.
  intros A B Z. assert (E : val a * val b = 0) by (destruct Z as [-> | ->]; ring). destruct (fmul_val a b A B) as [F V].
  - rewrite E. apply no_overflow. rewrite Rabs_R0. destruct big_1000. lra.
  - split; [exact F|]. rewrite V, E. apply rd_0.
Qed.
Lemma sum3_one p0 p1 p2 x s : finite p0 -> finite p1 -> finite p2 ->
  (val p0 = s /\ val p1 = 0 /\ val p2 = 0) \/ (val p0 = 0 /\ val p1 = s /\ val p2 = 0) \/ (val p0 = 0 /\ val p1 = 0 /\ val p2 = s) ->
  fsum3 p0 p1 p2 x -> finite x /\ val x = s.
Proof.
  intros F0 F1 F2 H P. destruct P.
  - destruct (add_zero p0 p1 F0 F1) as [F V]; [tauto|]. destruct (add_zero (fadd p0 p1) p2 F F2) as [F' W].
    + rewrite V. destruct H as [(? & ? & ?)|[(? & ? & ?)|(? & ? & ?)]]; [right; lra..|left; lra].
    + split; [exact F'|]. rewrite W, V. destruct H as [(? & ? & ?)|[(? & ? & ?)|(? & ? & ?)]]; lra.
  - destruct (add_zero p1 p2 F1 F2) as [F V]; [tauto|]. destruct (add_zero p0 (fadd p1 p2) F0 F) as [F' W].
    + rewrite V. destruct H as [(? & ? & ?)|[(? & ? & ?)|(? & ? & ?)]]; [right; lra|left; lra..].
    + split; [exact F'|]. rewrite W, V. destruct H as [(? & ? & ?)|[(? & ? & ?)|(? & ? & ?)]]; lra.
Qed.
Lemma multiple_step x y a b c : a_multiple x a -> a_multiple y b -> Rabs (x * y) <= 2 -> fmmul a b c -> a_multiple (rd (x * y)) c.
Proof.
  intros ((A0 & A1 & A2 & A3 & A4 & A5 & A6 & A7 & A8) & A) ((B0 & B1 & B2 & B3 & B4 & B5 & B6 & B7 & B8) & B) K (P0 & P1 & P2 & P3 & P4 & P5 & P6 & P7 & P8).
  unfold mval, mscale, mid in A, B. cbn [m00 m01 m02 m10 m11 m12 m20 m21 m22] in A, B. injection A as a0 a1 a2 a3 a4 a5 a6 a7 a8. injection B as b0 b1 b2 b3 b4 b5 b6 b7 b8.
  rewrite Rmult_1_r in a0, a4, a8, b0, b4, b8. rewrite Rmult_0_r in a1, a2, a3, a5, a6, a7, b1, b2, b3, b5, b6, b7.
  assert (D : forall p q, finite p -> finite q -> val p = x -> val q = y -> finite (fmul p q) /\ val (fmul p q) = rd (x * y)).
  { intros p q Fp Fq Vp Vq. destruct (fmul_val p q Fp Fq) as [F V]; [rewrite Vp, Vq; apply no_overflow; destruct big_1000; lra|]. rewrite Vp, Vq in V. split; assumption. }
  assert (On : forall p q p1 q1 p2 q2 r, finite p -> finite q -> finite p1 -> finite q1 -> finite p2 -> finite q2 -> val p = x -> val q = y -> val p1 = 0 -> val p2 = 0 ->
    (fsum3 (fmul p q) (fmul p1 q1) (fmul p2 q2) r \/ fsum3 (fmul p1 q1) (fmul p q) (fmul p2 q2) r \/ fsum3 (fmul p1 q1) (fmul p2 q2) (fmul p q) r) -> finite r /\ val r = rd (x * y)).
  { intros p q p1 q1 p2 q2 r Fp Fq Fp1 Fq1 Fp2 Fq2 Vp Vq Vp1 Vp2 H. destruct (D p q Fp Fq Vp Vq) as [F V]. destruct (mul_zero p1 q1 Fp1 Fq1 (or_introl Vp1)) as [F1 V1].
    destruct (mul_zero p2 q2 Fp2 Fq2 (or_introl Vp2)) as [F2 V2]. destruct H as [H|[H|H]]; refine (sum3_one _ _ _ _ _ _ _ _ _ H); auto. }
  assert (Off : forall p0 q0 p1 q1 p2 q2 r, finite p0 -> finite q0 -> finite p1 -> finite q1 -> finite p2 -> finite q2 -> val p0 = 0 \/ val q0 = 0 -> val p1 = 0 \/ val q1 = 0 -> val p2 = 0 \/ val q2 = 0 ->
    fsum3 (fmul p0 q0) (fmul p1 q1) (fmul p2 q2) r -> finite r /\ val r = 0).
  { intros p q p1 q1 p2 q2 r Fp Fq Fp1 Fq1 Fp2 Fq2 Vp Vp1 Vp2 H. destruct (mul_zero p q Fp Fq Vp) as [F V]. destruct (mul_zero p1 q1 Fp1 Fq1 Vp1) as [F1 V1].
    destruct (mul_zero p2 q2 Fp2 Fq2 Vp2) as [F2 V2]. refine (sum3_one _ _ _ _ _ _ _ _ _ H); auto. }
  unfold fdot in *.
  destruct (On _ _ _ _ _ _ (f00 c) A0 B0 A1 B3 A2 B6 a0 b0 a1 a2 (or_introl P0)) as [? c0].
  destruct (Off _ _ _ _ _ _ _ A0 B1 A1 B4 A2 B7 ltac:(auto) ltac:(auto) ltac:(auto) P1) as [? c1].
  destruct (Off _ _ _ _ _ _ _ A0 B2 A1 B5 A2 B8 ltac:(auto) ltac:(auto) ltac:(auto) P2) as [? c2].
  destruct (Off _ _ _ _ _ _ _ A3 B0 A4 B3 A5 B6 ltac:(auto) ltac:(auto) ltac:(auto) P3) as [? c3].
  destruct (On _ _ _ _ _ _ (f11 c) A4 B4 A3 B1 A5 B7 a4 b4 a3 a5 (or_intror (or_introl P4))) as [? c4].
  destruct (Off _ _ _ _ _ _ _ A3 B2 A4 B5 A5 B8 ltac:(auto) ltac:(auto) ltac:(auto) P5) as [? c5].
  destruct (Off _ _ _ _ _ _ _ A6 B0 A7 B3 A8 B6 ltac:(auto) ltac:(auto) ltac:(auto) P6) as [? c6].
  destruct (Off _ _ _ _ _ _ _ A6 B1 A7 B4 A8 B7 ltac:(auto) ltac:(auto) ltac:(auto) P7) as [? c7].
  destruct (On _ _ _ _ _ _ (f22 c) A8 B8 A6 B2 A7 B5 a8 b8 a6 a7 (or_intror (or_intror P8))) as [? c8].
  split; [repeat split; assumption|]. unfold mval, mscale, mid. cbn [m00 m01 m02 m10 m11 m12 m20 m21 m22]. rewrite c0, c1, c2, c3, c4, c5, c6, c7, c8. f_equal; ring.
Qed.
Lemma of_int_0 : finite (of_int 0) /\ val (of_int 0) = 0.
Proof. split; [reflexivity|]. reflexivity. Qed.
Lemma stretched_multiple : a_multiple (1 + / 2 ^ 52) stretched.
Proof.
  assert (F : finite (NrmSpec.double 4503599627370497 (-52)) /\ val (NrmSpec.double 4503599627370497 (-52)) = 1 + / 2 ^ 52).
  { split; [reflexivity|]. rewrite val_sf. replace (B2SF (NrmSpec.double 4503599627370497 (-52))) with (SpecFloat.S754_finite false 4503599627370497 (-52)) by (vm_compute; reflexivity).
    unfold SF2R, F2R. cbn [Fnum Fexp cond_Zopp]. change (bpow radix2 (-52)) with (/ 4503599627370496). lra. }
  unfold stretched. set (i := NrmSpec.double 4503599627370497 (-52)) in *. destruct F as [F V]. destruct of_int_0 as [F0 V0]. set (o := of_int 0) in *. clearbody i o.
  split; [unfold mfinite; cbn [f00 f01 f02 f10 f11 f12 f20 f21 f22]; repeat split; assumption|]. unfold mval, mscale, mid. cbn [f00 f01 f02 f10 f11 f12 f20 f21 f22 m00 m01 m02 m10 m11 m12 m20 m21 m22].
  rewrite V, V0. f_equal; ring.
Qed.
Lemma drifting n p : (Z.of_nat n < 2 ^ 51)%Z -> rotation_of (repeatedly n stretched) p -> a_multiple (1 + INR (S n) * / 2 ^ 52) p.
Proof.
  revert p. induction n as [|n IH]; cbn [repeatedly]; intros p N P.
  - inversion P; subst. change (INR 1) with 1. rewrite Rmult_1_l. apply stretched_multiple.
  - inversion P as [|? ? a b ? Pa Pb M|]; subst. inversion Pb; subst. specialize (IH a ltac:(lia) Pa). pose proof (rd_step (Z.of_nat (S n)) ltac:(lia)) as R.
    rewrite <- INR_IZR_INZ in R. replace (IZR (Z.of_nat (S n) + 1)) with (INR (S (S n))) in R by (rewrite INR_IZR_INZ; f_equal; lia). rewrite <- R.
    assert (Bd : 0 <= INR (S (S n)) <= 2251799813685248) by (split; [apply pos_INR|rewrite INR_IZR_INZ; apply IZR_le; lia]).
    assert (Bn : 0 <= INR (S n) <= INR (S (S n))) by (split; [apply pos_INR|apply le_INR; lia]). assert (E : 2 ^ 52 = 4503599627370496) by lra.
    apply (multiple_step _ _ a stretched p IH stretched_multiple); [|exact M]; rewrite E; rewrite Rabs_right by nra; nra.
Qed.

(** ** Quarter turns lose nothing *)
Lemma mul_sign a b : finite a -> finite b -> Rabs (val a) = 1 -> finite (fmul a b) /\ val (fmul a b) = val a * val b.
Proof.
  intros A B S. assert (E : val a * val b = val b \/ val a * val b = - val b) by (unfold Rabs in S; destruct (Rcase_abs (val a)); [right|left]; nra).
  assert (V : rd (val a * val b) = val a * val b) by (destruct E as [-> | ->]; [|rewrite rd_opp; f_equal]; apply rd_id, val_fmt).
  destruct (fmul_val a b A B) as [F W].
  - pose proof (val_fits b) as N. unfold overflows in *. rewrite V. rewrite rd_id in N by apply val_fmt. destruct E as [-> | ->]; rewrite ?Rabs_Ropp; exact N.
  - split; [exact F|]. rewrite W. exact V.
Qed.
Lemma dot_exact a0 a1 a2 b0 b1 b2 x : finite a0 -> finite a1 -> finite a2 -> finite b0 -> finite b1 -> finite b2 ->
  val a0 * val a0 + val a1 * val a1 + val a2 * val a2 = 1 -> fdot a0 a1 a2 b0 b1 b2 x ->
  finite x /\ val x = val a0 * val b0 + val a1 * val b1 + val a2 * val b2.
Proof.
  intros A0 A1 A2 B0 B1 B2 N D. destruct (unit_row _ _ _ N) as (U0 & U1 & U2). unfold fdot in D.
  assert (Q : forall r, Rabs r = 1 -> r * r = 1) by (intros r H; unfold Rabs in H; destruct (Rcase_abs r); nra).
  assert (T : (Rabs (val a0) = 1 /\ val a1 = 0 /\ val a2 = 0) \/ (val a0 = 0 /\ Rabs (val a1) = 1 /\ val a2 = 0) \/ (val a0 = 0 /\ val a1 = 0 /\ Rabs (val a2) = 1)).
  { destruct U0 as [U0|U0], U1 as [U1|U1], U2 as [U2|U2]; try (pose proof (Q _ U0)); try (pose proof (Q _ U1)); try (pose proof (Q _ U2)); rewrite ?U0, ?U1, ?U2 in N; try lra; tauto. }
  destruct T as [(H0 & H1 & H2)|[(H0 & H1 & H2)|(H0 & H1 & H2)]].
  - destruct (mul_sign a0 b0 A0 B0 H0) as [F0 V0]. destruct (mul_zero a1 b1 A1 B1 (or_introl H1)) as [F1 V1]. destruct (mul_zero a2 b2 A2 B2 (or_introl H2)) as [F2 V2].
    destruct (sum3_one _ _ _ x (val a0 * val b0) F0 F1 F2) as [F V]; [auto|exact D|]. split; [exact F|]. rewrite V, H1, H2. ring.
  - destruct (mul_zero a0 b0 A0 B0 (or_introl H0)) as [F0 V0]. destruct (mul_sign a1 b1 A1 B1 H1) as [F1 V1]. destruct (mul_zero a2 b2 A2 B2 (or_introl H2)) as [F2 V2].
    destruct (sum3_one _ _ _ x (val a1 * val b1) F0 F1 F2) as [F V]; [auto|exact D|]. split; [exact F|]. rewrite V, H0, H2. ring.
  - destruct (mul_zero a0 b0 A0 B0 (or_introl H0)) as [F0 V0]. destruct (mul_zero a1 b1 A1 B1 (or_introl H1)) as [F1 V1]. destruct (mul_sign a2 b2 A2 B2 H2) as [F2 V2].
    destruct (sum3_one _ _ _ x (val a2 * val b2) F0 F1 F2) as [F V]; [auto|exact D|]. split; [exact F|]. rewrite V, H0, H1. ring.
Qed.
Lemma rot_rows m : is_rotation m -> m00 m * m00 m + m01 m * m01 m + m02 m * m02 m = 1 /\ m10 m * m10 m + m11 m * m11 m + m12 m * m12 m = 1 /\
  m20 m * m20 m + m21 m * m21 m + m22 m * m22 m = 1.
Proof.
  intro H. apply rot_mtrans_r in H. unfold mmul, mtrans, mid in H. cbn [m00 m01 m02 m10 m11 m12 m20 m21 m22] in H. injection H as H0 _ _ _ H1 _ _ _ H2. auto.
Qed.
Lemma exact_product a b c : exactly a -> exactly b -> fmmul a b c -> mfinite c /\ mval c = mmul (mval a) (mval b).
Proof.
  intros [(A0 & A1 & A2 & A3 & A4 & A5 & A6 & A7 & A8) A] [(B0 & B1 & B2 & B3 & B4 & B5 & B6 & B7 & B8) B] (P0 & P1 & P2 & P3 & P4 & P5 & P6 & P7 & P8).
  destruct (rot_rows _ A) as (R0 & R1 & R2). cbn [mval m00 m01 m02 m10 m11 m12 m20 m21 m22] in R0, R1, R2.
  apply dot_exact in P0; [|assumption..]. apply dot_exact in P1; [|assumption..]. apply dot_exact in P2; [|assumption..]. apply dot_exact in P3; [|assumption..]. apply dot_exact in P4; [|assumption..].
  apply dot_exact in P5; [|assumption..]. apply dot_exact in P6; [|assumption..]. apply dot_exact in P7; [|assumption..]. apply dot_exact in P8; [|assumption..].
  split; [unfold mfinite; tauto|]. unfold mval, mmul. cbn [m00 m01 m02 m10 m11 m12 m20 m21 m22]. f_equal; tauto.
Qed.
Lemma exact_act a v w : exactly a -> vfinite v -> fmvec a v w -> vfinite w /\ vval w = mvec (mval a) (vval v).
Proof.
  intros [(A0 & A1 & A2 & A3 & A4 & A5 & A6 & A7 & A8) A] (V0 & V1 & V2) (P0 & P1 & P2).
  destruct (rot_rows _ A) as (R0 & R1 & R2). cbn [mval m00 m01 m02 m10 m11 m12 m20 m21 m22] in R0, R1, R2.
  apply dot_exact in P0; [|assumption..]. apply dot_exact in P1; [|assumption..]. apply dot_exact in P2; [|assumption..].
  split; [unfold vfinite; tauto|]. unfold vval, mvec, mval. cbn [m00 m01 m02 m10 m11 m12 m20 m21 m22 vx vy vz]. f_equal; tauto.
Qed.
Lemma exact_composed x p : every exactly x -> rotation_of x p -> exactly p /\ mval p = exact_rotation (rmap mval x).
Proof.
  revert p. induction x as [a|x IH y IH'|x IH]; cbn [every rmap exact_rotation]; intros p H P.
  - inversion P; subst. auto.
  - inversion P as [|? ? a b ? Pa Pb M|]; subst. destruct (IH a (proj1 H) Pa) as [Ea Va]. destruct (IH' b (proj2 H) Pb) as [Eb Vb].
    destruct (exact_product a b p Ea Eb M) as [F V]. rewrite <- Va, <- Vb. split; [split; [exact F|]|exact V]. rewrite V. apply rot_mmul; [apply Ea|apply Eb].
  - inversion P as [| |? a Pa]; subst. destruct (IH a H Pa) as [[F R] V]. change (mval (fmtrans a)) with (mtrans (mval a)). rewrite <- V. split; [|reflexivity].
    split; [|exact (rot_mtrans (mval a) R)]. destruct F as (? & ? & ? & ? & ? & ? & ? & ? & ?). repeat split; assumption.
Qed.

(** ** What fails *)
Lemma turn_rotation a b c : c <> 0 -> a * a + b * b = c * c -> is_rotation (turn a b c).
Proof.
  intros C H. assert (E : a / c * (a / c) + b / c * (b / c) = 1) by (replace (a / c * (a / c) + b / c * (b / c)) with ((a * a + b * b) / (c * c)) by (field; exact C); rewrite H; field; exact C).
  split; [unfold mmul, mtrans, mid, turn; cbn [m00 m01 m02 m10 m11 m12 m20 m21 m22]; f_equal; try ring; try (field; exact C)|
    unfold det, turn; cbn [m00 m01 m02 m10 m11 m12 m20 m21 m22]]; (transitivity (a / c * (a / c) + b / c * (b / c)); [field; exact C|exact E]).
Qed.
Lemma size_at_most m b : 0 <= b -> m00 m ^ 2 + m01 m ^ 2 + m02 m ^ 2 + m10 m ^ 2 + m11 m ^ 2 + m12 m ^ 2 + m20 m ^ 2 + m21 m ^ 2 + m22 m ^ 2 <= b ^ 2 -> size m <= b.
Proof. intros B H. unfold size. rewrite <- (sqrt_pow2 b B). apply sqrt_le_1_alt, H. Qed.
Lemma of_int_1 : finite (of_int 1) /\ val (of_int 1) = 1.
Proof. split; [reflexivity|]. rewrite (proj2 (of_int_val 1 (int_no_overflow 1 ltac:(lia)))). apply rd_int. lia. Qed.
Lemma sf_value s m e : SF2R radix2 (SpecFloat.S754_finite s m e) = IZR (cond_Zopp s (Zpos m)) * bpow radix2 e.
Proof. reflexivity. Qed.
Definition near (x : f64) (r : R) : Prop := finite x /\ Rabs (val x - r) <= / 2 ^ 54.
Ltac nearby sf := split; [reflexivity|]; rewrite val_sf;
  match goal with |- context [B2SF ?x] => replace (B2SF x) with sf by (vm_compute; reflexivity) end;
  rewrite sf_value; cbn [cond_Zopp Z.opp]; change (bpow radix2 (-54)) with (/ 18014398509481984); change (bpow radix2 (-53)) with (/ 9007199254740992);
  replace (2 ^ 54) with 18014398509481984 by lra; apply Rabs_le; lra.
Lemma near_5_13 : near (quotient 5 13) (5 / 13). Proof. nearby (SpecFloat.S754_finite false 6928614811339225 (-54)). Qed.
Lemma near_m12_13 : near (quotient (-12) 13) (- (12) / 13). Proof. nearby (SpecFloat.S754_finite true 8314337773607070 (-53)). Qed.
Lemma near_12_13 : near (quotient 12 13) (12 / 13). Proof. nearby (SpecFloat.S754_finite false 8314337773607070 (-53)). Qed.
Lemma near_3_5 : near (quotient 3 5) (3 / 5). Proof. nearby (SpecFloat.S754_finite false 5404319552844595 (-53)). Qed.
Lemma near_m4_5 : near (quotient (-4) 5) (- (4) / 5). Proof. nearby (SpecFloat.S754_finite true 7205759403792794 (-53)). Qed.
Lemma near_4_5 : near (quotient 4 5) (4 / 5). Proof. nearby (SpecFloat.S754_finite false 7205759403792794 (-53)). Qed.
Lemma near_turn a b c : near (quotient a c) (IZR a / IZR c) -> near (quotient (- b) c) (- IZR b / IZR c) -> near (quotient b c) (IZR b / IZR c) ->
  IZR c <> 0 -> IZR a * IZR a + IZR b * IZR b = IZR c * IZR c -> stands_for u (stored_turn a b c, turn (IZR a) (IZR b) (IZR c)).
Proof.
  intros [Fa A] [Fm M] [Fb B] C E. destruct of_int_0 as [F0 V0], of_int_1 as [F1 V1]. unfold stored_turn. cbn [fst snd].
  set (qa := quotient a c) in *. set (qm := quotient (- b) c) in *. set (qb := quotient b c) in *. set (o := of_int 0) in *. set (i := of_int 1) in *. clearbody qa qm qb o i.
  split; [cbn [fst]; unfold mfinite; cbn [f00 f01 f02 f10 f11 f12 f20 f21 f22]; repeat split; assumption|]. split; [apply turn_rotation; assumption|].
  unfold apart. apply size_at_most; [pose proof u_pos; lra|]. cbn [fst snd mval madd mscale turn f00 f01 f02 f10 f11 f12 f20 f21 f22 m00 m01 m02 m10 m11 m12 m20 m21 m22]. rewrite V0, V1.
  assert (Sq : forall x y : R, Rabs (x - y) <= / 2 ^ 54 -> (x + -1 * y) ^ 2 <= (/ 2 ^ 54) ^ 2).
  { intros x y H. replace (x + -1 * y) with (x - y) by ring. rewrite <- (pow2_abs (x - y)). apply pow_incr. split; [apply Rabs_pos|exact H]. }
  apply Sq in A, M, B. assert (U : u ^ 2 = 4 * (/ 2 ^ 54) ^ 2) by (unfold u; replace (2 ^ 54) with (2 * 2 ^ 53) by lra; field; lra). rewrite U. lra.
Qed.
Lemma turn_5_12_13 : stands_for u (stored_turn 5 12 13, turn 5 12 13).
Proof. apply near_turn; [apply near_5_13|apply near_m12_13|apply near_12_13|lra|lra]. Qed.
Lemma turn_3_4_5 : stands_for u (stored_turn 3 4 5, turn 3 4 5).
Proof. apply near_turn; [apply near_3_5|apply near_m4_5|apply near_4_5|lra|lra]. Qed.

Lemma fsum3_cases a b c x : fsum3 a b c x -> x = fadd (fadd a b) c \/ x = fadd a (fadd b c).
Proof. intros []; auto. Qed.
Lemma product_inv a b p : rotation_of (RProduct (RGiven a) (RGiven b)) p -> fmmul a b p.
Proof. intro P. inversion P as [|? ? a' b' ? Pa Pb M|]; subst. inversion Pa; inversion Pb; subst. exact M. Qed.
Lemma product_inverse_inv a b p : rotation_of (RProduct (RGiven a) (RInverse (RGiven b))) p -> fmmul a (fmtrans b) p.
Proof. intro P. inversion P as [|? ? a' b' ? Pa Pb M|]; subst. inversion Pa; inversion Pb as [| |? b'' Pb']; subst. inversion Pb'; subst. exact M. Qed.
Lemma not_one x : B2SF x = SpecFloat.S754_finite false 4503599627370497 (-52) -> val x = 1 + / 2 ^ 52.
Proof. intro H. rewrite val_sf, H, sf_value. cbn [cond_Zopp]. change (bpow radix2 (-52)) with (/ 4503599627370496). lra. Qed.
Lemma inverse_off p : rotation_of (RProduct (RGiven (stored_turn 5 12 13)) (RInverse (RGiven (stored_turn 5 12 13)))) p -> val (f00 p) = 1 + / 2 ^ 52.
Proof.
  intro P. apply product_inverse_inv in P. destruct P as (P & _). apply not_one. apply fsum3_cases in P. destruct P as [-> | ->]; vm_compute; reflexivity.
Qed.
Lemma grouping p q : rotation_of (RProduct (RProduct (RGiven (stored_turn 5 12 13)) (RGiven (stored_turn 3 4 5))) (RGiven (stored_turn 3 4 5))) p ->
  rotation_of (RProduct (RGiven (stored_turn 5 12 13)) (RProduct (RGiven (stored_turn 3 4 5)) (RGiven (stored_turn 3 4 5)))) q -> val (f00 q) < val (f00 p).
Proof.
  intros P Q.
  assert (Ep : B2SF (f00 p) = SpecFloat.S754_finite true 8951770336250278 (-53)).
  { inversion P as [|? ? a b ? Pa Pb M|]; subst. inversion Pb; subst. apply product_inv in Pa. destruct Pa as (P0 & P1 & P2 & _). destruct M as (M & _).
    apply fsum3_cases in P0, P1, P2, M. destruct M as [-> | ->], P0 as [-> | ->], P1 as [-> | ->], P2 as [-> | ->]; vm_compute; reflexivity. }
  assert (Eq : B2SF (f00 q) = SpecFloat.S754_finite true 8951770336250279 (-53)).
  { inversion Q as [|? ? a b ? Qa Qb M|]; subst. inversion Qa; subst. apply product_inv in Qb. destruct Qb as (P0 & _ & _ & P1 & _ & _ & P2 & _). destruct M as (M & _).
    apply fsum3_cases in P0, P1, P2, M. destruct M as [-> | ->], P0 as [-> | ->], P1 as [-> | ->], P2 as [-> | ->]; vm_compute; reflexivity. }
  rewrite (val_sf (f00 p)), (val_sf (f00 q)), Ep, Eq, !sf_value. cbn [cond_Zopp Z.opp]. pose proof (bpow_gt_0 radix2 (-53)). lra.
Qed.
Lemma length_kept e x p v w : every (stands_for e) x -> bound e x <= 1 / 10 -> rotation_of (rmap fst x) p -> vfinite v -> norm (vval v) <= 2 ^ 995 -> fmvec p v w ->
  Rabs (norm (vval w) - norm (vval v)) <= (10 / 9 * bound e x + 6 * u) * norm (vval v) + 7 * h.
Proof.
  intros H B P Fv Nv V. destruct (composed_close e x p H B P) as (_ & R & _). destruct (composed_rotates e x p v w H B P Fv Nv V) as [_ D].
  rewrite <- (rot_norm _ (vval v) R) at 1. pose proof (norm_near (vval w) (mvec (exact_rotation (rmap snd x)) (vval v))) as N1.
  pose proof (norm_near (mvec (exact_rotation (rmap snd x)) (vval v)) (vval w)) as N2.
  assert (Sy : norm (vsub (mvec (exact_rotation (rmap snd x)) (vval v)) (vval w)) = norm (vsub (vval w) (mvec (exact_rotation (rmap snd x)) (vval v)))).
  { unfold norm. f_equal. vring. }
  apply Rabs_le. lra.
Qed.
Lemma right_angles e x p : every (stands_for e) x -> bound e x <= 1 / 10 -> rotation_of (rmap fst x) p -> apart (mmul (mtrans (mval p)) (mval p)) mid <= 5 / 2 * bound e x.
Proof.
  intros H B P. destruct (composed_close e x p H B P) as (_ & R & A). pose proof (orthogonal p _ _ R A). pose proof (bound_pos e x (stands_pos e x H)). nra.
Qed.
Lemma pose_inverse_off p : let a := FP (stored_turn 5 12 13) (FV (of_int 1) (of_int 0) (of_int 0)) in
  pose_of (RProduct (RGiven a) (RInverse (RGiven a))) p -> val (fx (ftrans p)) = - / 2 ^ 52.
Proof.
  cbn zeta. intro P. inversion P as [|? ? a b ? Pa Pb M|]; subst. inversion Pa; subst. inversion Pb as [| |? a' b' Pa' I]; subst. inversion Pa'; subst.
  destruct M as (_ & w & (W & _) & ->). destruct I as [_ (I0 & I1 & I2)].
  assert (E : B2SF (fx (fvadd w (FV (of_int 1) (of_int 0) (of_int 0)))) = SpecFloat.S754_finite true 4503599627370496 (-104)).
  { cbn [frot ftrans fvadd fx] in *. apply fsum3_cases in W, I0, I1, I2.
    destruct W as [-> | ->], I0 as [-> | ->], I1 as [-> | ->], I2 as [-> | ->]; vm_compute; reflexivity. }
  cbn [ftrans]. rewrite val_sf. etransitivity; [apply f_equal; exact E|]. rewrite sf_value. cbn [cond_Zopp Z.opp]. change (-104)%Z with (-52 + -52)%Z. rewrite bpow_plus. change (bpow radix2 (-52)) with (/ 4503599627370496).
  replace (2 ^ 52) with 4503599627370496 by lra. lra.
Qed.
Lemma repeatedly_mid n (a : fmat) : exact_rotation (rmap snd (repeatedly n (a, mid))) = mid.
Proof. induction n as [|n IH]; cbn [repeatedly rmap exact_rotation snd]; [reflexivity|]. rewrite IH. unfold mmul, mid. cbn [m00 m01 m02 m10 m11 m12 m20 m21 m22]. f_equal; ring. Qed.
Lemma repeatedly_fst n (a : fmat) (r : mat3) : rmap fst (repeatedly n (a, r)) = repeatedly n a.
Proof. induction n as [|n IH]; cbn [repeatedly rmap fst]; [reflexivity|]. rewrite IH. reflexivity. Qed.
Lemma multiple_apart x p : 0 <= x -> a_multiple (1 + x) p -> apart (mval p) mid = sqrt 3 * x.
Proof.
  intros X [_ V]. unfold apart. rewrite V. replace (madd (mscale (1 + x) mid) (mscale (-1) mid)) with (mscale x mid).
  - rewrite size_scale, Rabs_right by lra. rewrite (size_rot mid rot_mid). ring.
  - unfold madd, mscale, mid. cbn [m00 m01 m02 m10 m11 m12 m20 m21 m22]. f_equal; ring.
Qed.
Lemma stretched_stands : stands_for (2 * / 2 ^ 52) (stretched, mid).
Proof.
  destruct stretched_multiple as [F V]. split; [exact F|]. split; [apply rot_mid|]. cbn [fst snd].
  assert (P : 0 < / 2 ^ 52) by (apply Rinv_0_lt_compat; lra). rewrite (multiple_apart (/ 2 ^ 52) stretched (Rlt_le _ _ P) (conj F V)).
  apply Rmult_le_compat_r; [lra|]. pose proof sqrt3_le. lra.
Qed.
Lemma drift_apart n p : (Z.of_nat n < 2 ^ 51)%Z -> rotation_of (rmap fst (repeatedly n (stretched, mid))) p ->
  apart (mval p) (exact_rotation (rmap snd (repeatedly n (stretched, mid)))) = sqrt 3 * (INR (S n) * / 2 ^ 52).
Proof.
  intros N P. rewrite repeatedly_fst in P. rewrite repeatedly_mid. apply multiple_apart; [|apply drifting; assumption].
  apply Rmult_le_pos; [apply pos_INR|]. left. apply Rinv_0_lt_compat. lra.
Qed.
Lemma turn_given t l : vfinite t -> norm (vval t) <= l -> / 2 ^ 900 <= l -> pose_stands_for u (Given (FP (stored_turn 5 12 13) t) (turn 5 12 13) (vval t) l).
Proof.
  intros F N L. split; [exact turn_5_12_13|]. cbn [g_pose ftrans g_translation g_length]. split; [exact F|]. split; [|split; assumption].
  replace (vsub (vval t) (vval t)) with (V3 0 0 0) by vring.
  replace (norm (V3 0 0 0)) with 0. { apply Rmult_le_pos; [pose proof u_pos; lra|]. eapply Rle_trans; [apply norm_nonneg|exact N]. }
  unfold norm. rewrite <- sqrt_0 at 1. f_equal. unfold norm2, dot. cbn [vx vy vz]. ring.
Qed.
Lemma pose_error e x : every (pose_stands_for e) x -> weight e x <= 1 / 10 -> reach x <= 2 ^ 900 ->
  (exists p, pose_of (rmap g_pose x) p) /\
  forall p, pose_of (rmap g_pose x) p ->
  mfinite (frot p) /\ vfinite (ftrans p) /\
  apart (mval (frot p)) (fst (exact_pose (rmap g_exact x))) <= 10 / 9 * bound e x /\
  norm (vsub (vval (ftrans p)) (snd (exact_pose (rmap g_exact x)))) <= 2 * weight e x * reach x.
Proof.
  intros H W L. split; [apply some_pose|]. intros p P. destruct (posed e x H W L p P) as [Ft T].
  assert (E0 : 0 <= e) by (apply (stands_pos e (rotations x)), every_rotations, H).
  pose proof (weight_operations e x E0) as Ox. pose proof (bound_operations e x E0) as Bx.
  destruct (pose_rotation_close e x p H ltac:(lra) P) as (Fr & _ & A). auto.
Qed.
Lemma unit_x k : val (of_int k) = IZR k -> norm (vval (FV (of_int k) (of_int 0) (of_int 0))) = Rabs (IZR k).
Proof.
  intro V. unfold norm, norm2, dot, vval. cbn [fx fy fz vx vy vz]. rewrite V. change (val (of_int 0)) with 0. replace (IZR k * IZR k + 0 * 0 + 0 * 0) with (Rsqr (IZR k)) by (unfold Rsqr; ring).
  apply sqrt_Rsqr_abs.
Qed.
Lemma axis_given : pose_stands_for u (Given (FP (stored_turn 5 12 13) (FV (of_int 1) (of_int 0) (of_int 0))) (turn 5 12 13) (vval (FV (of_int 1) (of_int 0) (of_int 0))) 1).
Proof.
  apply turn_given; [repeat split; reflexivity| |].
  - rewrite unit_x by apply of_int_1. rewrite Rabs_R1. lra.
  - rewrite <- Rinv_1. apply Rinv_le; [lra|]. apply pow_R1_Rle. lra.
Qed.
Lemma origin_given : pose_stands_for u (Given (FP (stored_turn 5 12 13) (FV (of_int 0) (of_int 0) (of_int 0))) (turn 5 12 13) (vval (FV (of_int 0) (of_int 0) (of_int 0))) 1).
Proof.
  apply turn_given; [repeat split; reflexivity| |].
  - rewrite unit_x by reflexivity. rewrite Rabs_R0. lra.
  - rewrite <- Rinv_1. apply Rinv_le; [lra|]. apply pow_R1_Rle. lra.
Qed.
Lemma pose_case : exists x, every (pose_stands_for u) x /\ weight u x <= 1 / 10 /\ reach x <= 2 ^ 900 /\
  exists g k, rmap g_pose x = RProduct (RInverse (RGiven g)) (RGiven k) /\ val (fx (ftrans g)) = 0 /\ val (fx (ftrans k)) = 1.
Proof.
  eexists (RProduct (RInverse (RGiven _)) (RGiven _)). split; [split; [exact origin_given|exact axis_given]|]. split; [|split].
  - unfold weight. cbn [nesting operations Nat.max Nat.add INR]. rewrite u_num. lra.
  - cbn [reach g_length]. apply Rle_trans with (2 ^ 1); [lra|]. apply Rle_pow; [lra|lia].
  - eexists _, _. split; [reflexivity|]. cbn [ftrans fx g_pose]. split; [apply of_int_0|apply of_int_1].
Qed.
Lemma point_case : exists p v w, vfinite v /\ fpose_act p v w /\ val (fx w) = 2 /\ val (fx (ftrans p)) = 1.
Proof.
  set (t := FV (of_int 1) (of_int 0) (of_int 0)).
  exists (FP fmid t), t. eexists (fvadd (FV _ _ _) t). split; [repeat split; reflexivity|]. split; [|split].
  - eexists. split; [|reflexivity]. repeat split; apply sum_left.
  - cbn [frot ftrans fvadd fx fy fz]. rewrite val_sf. etransitivity; [apply f_equal; instantiate (1 := SpecFloat.S754_finite false 4503599627370496 (-51)); vm_compute; reflexivity|].
    rewrite sf_value. cbn [cond_Zopp]. change (bpow radix2 (-51)) with (/ 2251799813685248). lra.
  - cbn [ftrans fx t]. apply of_int_1.
Qed.
Lemma pose_inverse_fails : exists g, pose_stands_for u g /\
  forall p, pose_of (RProduct (RGiven (g_pose g)) (RInverse (RGiven (g_pose g)))) p -> val (fx (ftrans p)) = - / 2 ^ 52.
Proof. eexists. split; [exact axis_given|]. intros p P. exact (pose_inverse_off p P). Qed.
