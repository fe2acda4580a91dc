(** Poses made in double precision: C67. *)
From Coq Require Import Reals Psatz ZArith.
From Flocq Require Import Core BinarySingleNaN.
From Verif Require Import Cpp FloatModel FloatSpec NrmSpec Vec RotSpec ScrewSpec FloatProofs NrmProofs DriftModel DriftSpec DriftProofs DriftProofs2 SpinModel SpinSpec SpinProofs SpinProofs2 SpinProofs3 TwistModel TwistSpec TwistProofs TwistProofs2.
From Verif Require CoeffProofs DiffProofs.
Local Open Scope R_scope.

Lemma some_coeffs z : exists a b c, fexp_diff_coeffs z a b c.
Proof.
  unfold fexp_diff_coeffs. destruct (flt z FTINY_SQUARE_ANGLE); [do 3 eexists; repeat split|].
  destruct (some_sin (fsqrt z)) as [s S]. destruct (some_cos (fsqrt z)) as [k K]. do 3 eexists. exists s, k. split; [exact S|]. split; [exact K|]. cbv zeta. split; [reflexivity|]. split; reflexivity.
Qed.
Lemma some_dot a b c d e f : exists x, fdot a b c d e f x.
Proof. eexists. apply sum_left. Qed.
Lemma some_se3_exp w t : exists g, fse3_exp w t g.
Proof.
  destruct (some_exp w) as [m M]. destruct (some_dot (fx w) (fy w) (fz w) (fx w) (fy w) (fz w)) as [z Z]. destruct (some_coeffs z) as (a & b & c & C). destruct (some_dot (fx w) (fy w) (fz w) (fx t) (fy t) (fz t)) as [d D].
  eexists (FP m _). split; [exact M|]. cbn [ftrans]. exists z, a, b, c. split; [exact Z|]. split; [exact C|]. exists d. split; [exact D|]. reflexivity.
Qed.
Lemma some_exp_diff w : exists m, fso3_exp_diff w m.
Proof.
  destruct (some_dot (fx w) (fy w) (fz w) (fx w) (fy w) (fz w)) as [z Z]. destruct (some_coeffs z) as (a & b & c & C).
  eexists. exists z, a, b, c. split; [exact Z|]. split; [exact C|]. cbv zeta. reflexivity.
Qed.
Lemma se3_exp_near w t r g : vfinite w -> vfinite t -> norm (vval w) <= 2 ^ 490 -> norm (vval t) <= 2 ^ 500 -> rotation_by (vval w) r -> fse3_exp w t g ->
  stands_for ((51 + 4 * norm (vval w)) * u) (frot g, r) /\ vfinite (ftrans g) /\
  norm (vsub (vval (ftrans g)) (screw (vval w) (vval t) 1)) <= (76 + 203 / 100 / Rmax (norm (vval w)) (19 / 10000)) * u * norm (vval t) + (11 + 7 * norm (vval w)) * bpow radix2 (-1075).
Proof.
  intros W T L1 T1 R (M & z & a & b & c & Z & C & X). split; [exact (exp_near w r _ W L1 R M)|]. exact (exp_translation w t z a b c _ W T L1 T1 Z C X).
Qed.

(** No turn. *)
Lemma zero_coeffs z a b c : finite z -> val z = 0 -> fexp_diff_coeffs z a b c -> (finite a /\ val a = 1) /\ finite b /\ finite c.
Proof.
  intros F Z. assert (T : flt z FTINY_SQUARE_ANGLE = true) by (apply flt_val; [exact F|apply threshold|]; rewrite Z; destruct threshold; lra).
  intro C. assert (E : Rabs (val z - 0 * 0) <= 301 / 100 * u * (0 * 0) + 4 * h) by (rewrite Z; replace (0 - 0 * 0) with 0 by ring; rewrite Rabs_R0; pose proof h_pos; lra).
  destruct (coeffs_tiny 0 z a b c ltac:(lra) F ltac:(lra) E T C) as (_ & [Fa _] & [Fb _] & [Fc _]). split; [|split; assumption]. split; [exact Fa|].
  unfold fexp_diff_coeffs in C. rewrite T in C. destruct C as (_ & _ & ->). destruct (mul_zero z c F Fc (or_introl Z)) as [Fm Vm]. destruct of_int_1 as [F1 V1].
  destruct (fsub_val (of_int 1) (fmul z c) F1 Fm) as [_ V]; [rewrite V1, Vm; apply no_overflow; destruct big_1000; rewrite Rabs_right; lra|]. rewrite V, V1, Vm. replace (1 - 0) with (IZR 1) by lra. apply rd_int. lia.
Qed.
Lemma zero_cross a b c d : finite a -> finite b -> finite c -> finite d -> val a = 0 -> val c = 0 -> finite (fsub (fmul a b) (fmul c d)) /\ val (fsub (fmul a b) (fmul c d)) = 0.
Proof.
  intros A B C D A0 C0. destruct (mul_zero a b A B (or_introl A0)) as [F V]. destruct (mul_zero c d C D (or_introl C0)) as [G W]. apply sub_exact; [exact F|exact G|congruence].
Qed.
Lemma mul_one_l a x : finite a -> finite x -> val a = 1 -> finite (fmul a x) /\ val (fmul a x) = val x.
Proof. intros A X E. destruct (mul_sign a x A X) as [F V]; [rewrite E; apply Rabs_R1|]. split; [exact F|]. rewrite V, E. ring. Qed.
Lemma zero_dot a b c d e f x : finite a -> finite b -> finite c -> finite d -> finite e -> finite f -> val a = 0 -> val b = 0 -> val c = 0 -> fdot a b c d e f x -> finite x /\ val x = 0.
Proof.
  intros A B C D E F a0 b0 c0 X. destruct (mul_zero a d A D (or_introl a0)) as [F0 V0]. destruct (mul_zero b e B E (or_introl b0)) as [F1 V1]. destruct (mul_zero c f C F (or_introl c0)) as [F2 V2].
  destruct X; [destruct (add_zero _ _ F0 F1 (or_introl V0)) as [G W]; destruct (add_zero _ _ G F2 (or_intror V2)) as [G' W']|destruct (add_zero _ _ F1 F2 (or_introl V1)) as [G W]; destruct (add_zero _ _ F0 G (or_introl V0)) as [G' W']]; split; try exact G'; lra.
Qed.
Lemma no_turn_entry a b c d t n w : finite a -> val a = 1 -> finite b -> finite c -> finite d -> finite t -> finite n -> finite w -> val n = 0 -> val d = 0 ->
  let x := fadd (fadd (fmul a t) (fmul b n)) (fmul (fmul c d) w) in finite x /\ val x = val t.
Proof.
  intros A A1 B C D T N W n0 d0. cbv zeta. destruct (mul_one_l a t A T A1) as [F1 V1]. destruct (mul_zero b n B N (or_intror n0)) as [F2 V2]. destruct (mul_zero c d C D (or_intror d0)) as [F3 V3].
  destruct (mul_zero (fmul c d) w F3 W (or_introl V3)) as [F4 V4]. destruct (add_zero _ _ F1 F2 (or_intror V2)) as [F5 V5]. destruct (add_zero _ _ F5 F4 (or_intror V4)) as [F6 V6]. split; [exact F6|]. lra.
Qed.
Lemma se3_exp_no_turn w t g : vfinite w -> vfinite t -> vval w = vzero -> fse3_exp w t g -> mfinite (frot g) /\ mval (frot g) = mid /\ vfinite (ftrans g) /\ vval (ftrans g) = vval t.
Proof.
  intros W T O (M & z & a & b & c & Z & C & d & D & X). destruct (exp_zero w _ W O M) as [Fm Vm]. split; [exact Fm|]. split; [exact Vm|].
  destruct (zero_squared w z W O Z) as [Fz Vz]. destruct (zero_coeffs z a b c Fz Vz C) as ([Fa Va] & Fb & Fc). destruct W as (Wx & Wy & Wz), T as (Tx & Ty & Tz). unfold vval, vzero in O. injection O as Ox Oy Oz.
  destruct (zero_dot _ _ _ _ _ _ d Wx Wy Wz Tx Ty Tz Ox Oy Oz D) as [Fd Vd]. cbv zeta in X. unfold fcross in X. cbn [fx fy fz] in X.
  destruct (zero_cross _ _ _ _ Wy Tz Wz Ty Oy Oz) as [N1 U1]. destruct (zero_cross _ _ _ _ Wz Tx Wx Tz Oz Ox) as [N2 U2]. destruct (zero_cross _ _ _ _ Wx Ty Wy Tx Ox Oy) as [N3 U3].
  destruct (no_turn_entry a b c d _ _ _ Fa Va Fb Fc Fd Tx N1 Wx U1 Vd) as [I1 J1]. destruct (no_turn_entry a b c d _ _ _ Fa Va Fb Fc Fd Ty N2 Wy U2 Vd) as [I2 J2]. destruct (no_turn_entry a b c d _ _ _ Fa Va Fb Fc Fd Tz N3 Wz U3 Vd) as [I3 J3].
  rewrite X. unfold vfinite, vval. cbn [fx fy fz]. split; [split; [exact I1|split; [exact I2|exact I3]]|]. f_equal; assumption.
Qed.

(** The matrix. *)
Lemma screw_matrix_explicit w : let L := norm w in screw_matrix w = madd (madd (mscale (ca L) mid) (mscale (cb L) (skew w))) (mscale (cc L) (outer w w)).
Proof.
  intro L. unfold screw_matrix. rewrite !screw_coeffs. fold L. destruct w as [x y z]. unfold madd, mscale, mid, skew, outer, vadd, vscale, cross, dot. cbn [vx vy vz m00 m01 m02 m10 m11 m12 m20 m21 m22]. f_equal; ring.
Qed.
Lemma screw_matrix_acts w v : mvec (screw_matrix w) v = screw w v 1.
Proof.
  rewrite screw_matrix_explicit, screw_coeffs. generalize (ca (norm w)) (cb (norm w)) (cc (norm w)). intros a b c. destruct w as [x y z], v as [p q r].
  unfold mvec, madd, mscale, mid, skew, outer, vadd, vscale, cross, dot. cbn [vx vy vz m00 m01 m02 m10 m11 m12 m20 m21 m22]. f_equal; ring.
Qed.
Lemma matrix_off a b c a' b' c' w : apart (madd (madd (mscale a mid) (mscale b (skew w))) (mscale c (outer w w))) (madd (madd (mscale a' mid) (mscale b' (skew w))) (mscale c' (outer w w))) <=
  17321 / 10000 * Rabs (a - a') + 142 / 100 * (Rabs (b - b') * norm w) + Rabs (c - c') * (norm w * norm w).
Proof.
  unfold apart. replace (madd _ _) with (madd (madd (mscale (a - a') mid) (mscale (b - b') (skew w))) (mscale (c - c') (outer w w))) by (destruct w as [x y z]; unfold madd, mscale, mid, skew, outer; cbn [vx vy vz m00 m01 m02 m10 m11 m12 m20 m21 m22]; f_equal; ring).
  eapply Rle_trans; [apply size_triangle|]. eapply Rle_trans; [apply Rplus_le_compat_r, size_triangle|]. rewrite !size_scale, size_outer. pose proof (size_skew w) as K. rewrite (size_rot mid mid_rotation). pose proof sqrt3_le as Q.
  pose proof (Rabs_pos (a - a')). pose proof (Rabs_pos (b - b')). nra.
Qed.
Lemma exp_diff_near w m : vfinite w -> norm (vval w) <= 2 ^ 490 -> fso3_exp_diff w m ->
  mfinite m /\ apart (mval m) (screw_matrix (vval w)) <= (110 + 289 / 100 / Rmax (norm (vval w)) (19 / 10000)) * u + (18 + 12 * norm (vval w)) * bpow radix2 (-1075).
Proof.
  intros Fw L1 (z & a & b & c & Hz & Hc & Hm). cbv zeta in Hm. destruct (coeffs_near w z a b c Fw L1 Hz Hc) as ((Fa & Fb & Fc) & Ea & Eb & Ec & Eb' & Ec'). pose proof (norm_nonneg (vval w)) as L0.
  destruct (coeff_bounds (norm (vval w)) L0) as (_ & Ba & Bb & Bb' & Bc & Bc'). destruct (entry_norm (vval w)) as (wx & wy & wz). cbn [vval vx vy vz] in wx, wy, wz. rewrite screw_matrix_explicit. set (L := norm (vval w)) in *.
  assert (O : off_by L <= / 1000) by (unfold off_by; assert (/ Rmax L (19 / 10000) <= 527) by (replace 527 with (/ (/ 527)) by field; apply Rinv_le_contravar; [lra|]; eapply Rle_trans; [|apply Rmax_r]; lra); rewrite u_num; unfold Rdiv; lra).
  assert (P1 : Rabs (val a) <= 101 / 100) by (pose proof (off_bound _ _ _ _ Ea Ba); rewrite u_num in *; lra).
  assert (P2 : Rabs (val b) <= 51 / 100) by (pose proof (off_bound _ _ _ (1 / 2) Eb' ltac:(rewrite Rabs_right; lra)); lra).
  assert (P3 : Rabs (val c) <= 51 / 100) by (pose proof (off_bound _ _ _ (1 / 2) Ec' ltac:(rewrite Rabs_right; lra)); lra).
  assert (P4 : Rabs (val b) * L <= 101 / 100).
  { rewrite <- (abs_scale (val b) L L0). pose proof Eb as Eb2. rewrite <- (abs_scale _ L L0) in Eb2. rewrite Rmult_minus_distr_r in Eb2. pose proof (off_bound _ _ _ 1 Eb2 ltac:(rewrite Rabs_right; lra)). lra. }
  assert (LL : 0 <= L * L) by nra.
  assert (P5 : Rabs (val c) * (L * L) <= 135 / 100).
  { rewrite <- (abs_scale (val c) _ LL). pose proof Ec as Ec2. rewrite <- (abs_scale _ _ LL) in Ec2. rewrite Rmult_minus_distr_r in Ec2. pose proof (off_bound _ _ _ (4 / 3) Ec2 ltac:(rewrite Rabs_right; lra)). rewrite u_num in *. lra. }
  destruct Fw as (Wx & Wy & Wz). destruct of_int_0 as [F0 V0]. destruct of_int_1 as [F1 V1]. pose proof h_pos as Hp. pose proof u_pos as Up.
  assert (K : forall ij xij vi vj, finite ij -> finite xij -> finite vi -> finite vj -> Rabs (val ij) <= 1 -> Rabs (val xij) <= L -> Rabs (val vi) <= L -> Rabs (val vj) <= L ->
    let x := fadd (fadd (fmul a ij) (fmul b xij)) (fmul (fmul c vi) vj) in
    finite x /\ Rabs (val x - (val a * val ij + val b * val xij + val c * val vi * val vj)) <= 17 * u * 1 + (6 + 4 * L) * h).
  { intros ij xij vi vj G1 G2 G3 G4 B1 B2 B3 B4.
    assert (0 <= u * L) by (apply Rmult_le_pos; lra). assert (1 <= 2 ^ 500) by (apply pow_R1_Rle; lra).
    apply (entry_near a b c vi ij xij vj L 1 (val xij) (val vi)); try assumption; rewrite ?Rminus_eq_0, ?Rabs_R0, ?Rmult_1_r; try lra. }
  assert (A0 : Rabs (val (of_int 0)) <= 1) by (rewrite V0, Rabs_R0; lra). assert (A0' : Rabs (val (of_int 0)) <= L) by (rewrite V0, Rabs_R0; lra). assert (A1 : Rabs (val (of_int 1)) <= 1) by (rewrite V1, Rabs_R1; lra).
  assert (Ng : forall x, finite x -> Rabs (val x) <= L -> finite (fneg x) /\ Rabs (val (fneg x)) <= L).
  { intros x X B. split; [|rewrite fneg_val, Rabs_Ropp; exact B]. unfold finite, fneg. rewrite is_finite_Bopp. exact X. }
  destruct (Ng _ Wx wx) as [Nx nx]. destruct (Ng _ Wy wy) as [Ny ny]. destruct (Ng _ Wz wz) as [Nz nz].
  destruct (K _ _ _ _ F1 F0 Wx Wx A1 A0' wx wx) as [G0 H0]. destruct (K _ _ _ _ F0 Nz Wx Wy A0 nz wx wy) as [G1 H1]. destruct (K _ _ _ _ F0 Wy Wx Wz A0 wy wx wz) as [G2 H2].
  destruct (K _ _ _ _ F0 Wz Wy Wx A0 wz wy wx) as [G3 H3]. destruct (K _ _ _ _ F1 F0 Wy Wy A1 A0' wy wy) as [G4 H4]. destruct (K _ _ _ _ F0 Nx Wy Wz A0 nx wy wz) as [G5 H5].
  destruct (K _ _ _ _ F0 Ny Wz Wx A0 ny wz wx) as [G6 H6]. destruct (K _ _ _ _ F0 Wx Wz Wy A0 wx wz wy) as [G7 H7]. destruct (K _ _ _ _ F1 F0 Wz Wz A1 A0' wz wz) as [G8 H8]. clear K Ng.
  rewrite Hm. unfold mfinite. cbn [f00 f01 f02 f10 f11 f12 f20 f21 f22]. split; [repeat split; assumption|].
  eapply Rle_trans; [apply (apart_triangle _ (madd (madd (mscale (val a) mid) (mscale (val b) (skew (vval w)))) (mscale (val c) (outer (vval w) (vval w)))))|].
  pose proof (matrix_off (val a) (val b) (val c) (ca L) (cb L) (cc L) (vval w)) as M. fold L in M.
  rewrite ?fneg_val, V0, V1 in *.
  assert (S : apart (mval (FM (fadd (fadd (fmul a (of_int 1)) (fmul b (of_int 0))) (fmul (fmul c (fx w)) (fx w))) (fadd (fadd (fmul a (of_int 0)) (fmul b (fneg (fz w)))) (fmul (fmul c (fx w)) (fy w))) (fadd (fadd (fmul a (of_int 0)) (fmul b (fy w))) (fmul (fmul c (fx w)) (fz w)))
    (fadd (fadd (fmul a (of_int 0)) (fmul b (fz w))) (fmul (fmul c (fy w)) (fx w))) (fadd (fadd (fmul a (of_int 1)) (fmul b (of_int 0))) (fmul (fmul c (fy w)) (fy w))) (fadd (fadd (fmul a (of_int 0)) (fmul b (fneg (fx w)))) (fmul (fmul c (fy w)) (fz w)))
    (fadd (fadd (fmul a (of_int 0)) (fmul b (fneg (fy w)))) (fmul (fmul c (fz w)) (fx w))) (fadd (fadd (fmul a (of_int 0)) (fmul b (fx w))) (fmul (fmul c (fz w)) (fy w))) (fadd (fadd (fmul a (of_int 1)) (fmul b (of_int 0))) (fmul (fmul c (fz w)) (fz w)))))
    (madd (madd (mscale (val a) mid) (mscale (val b) (skew (vval w)))) (mscale (val c) (outer (vval w) (vval w)))) <= 3 * (17 * u * 1 + (6 + 4 * L) * h)).
  { clear - H0 H1 H2 H3 H4 H5 H6 H7 H8. unfold apart, mval, madd, mscale, mid, skew, outer, vval. cbn [vx vy vz f00 f01 f02 f10 f11 f12 f20 f21 f22 m00 m01 m02 m10 m11 m12 m20 m21 m22].
    assert (Y : forall x y z d, Rabs (x - y) <= d -> y + z = 0 -> Rabs (x + z) <= d) by (intros x y z d X E; replace (x + z) with (x - y) by lra; exact X).
    apply size_all; cbn [m00 m01 m02 m10 m11 m12 m20 m21 m22];
      [apply (Y _ _ _ _ H0)|apply (Y _ _ _ _ H1)|apply (Y _ _ _ _ H2)|apply (Y _ _ _ _ H3)|apply (Y _ _ _ _ H4)|apply (Y _ _ _ _ H5)|apply (Y _ _ _ _ H6)|apply (Y _ _ _ _ H7)|apply (Y _ _ _ _ H8)]; clear; ring. }
  fold (off_by L) in *. fold h. eapply Rle_trans; [apply Rplus_le_compat; [exact S|exact M]|].
  assert (N : 17321 / 10000 * Rabs (val a - ca L) + 142 / 100 * (Rabs (val b - cb L) * L) + Rabs (val c - cc L) * (L * L) <= 17321 / 10000 * (94 / 10 * u) + 142 / 100 * off_by L + 235 / 10 * u) by lra.
  eapply Rle_trans; [apply Rplus_le_compat_l; exact N|]. unfold off_by.
  assert (I : 0 < / Rmax L (19 / 10000)) by (apply Rinv_0_lt_compat; eapply Rlt_le_trans; [|apply Rmax_r]; lra). unfold Rdiv. set (i := / Rmax L (19 * / 10000)) in *.
  replace (Rmax L (19 / 10000)) with (Rmax L (19 * / 10000)) in I by reflexivity. fold i in I. clearbody i. assert (0 < u * i) by (apply Rmult_lt_0_compat; assumption). lra.
Qed.
