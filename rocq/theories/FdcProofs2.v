(** Single products and inverses of poses in double precision. *)
From Coq Require Import Reals Psatz ZArith.
From Flocq Require Import Core BinarySingleNaN.
From Verif Require Import Cpp RotSpec GeomModel RotProofs CoeffProofs DerivSpec DerivProofs ScrewSpec LieProofs DiffProofs FloatModel FloatSpec NrmSpec FloatProofs NrmProofs DriftModel DriftSpec DriftProofs DriftProofs2 SpinModel SpinSpec SpinProofs SpinProofs2 TwistModel TwistProofs TwistProofs2 TwistProofs3 TlogModel TlogSpec TlogProofs TlogProofs2 TlogProofs4 TlogProofs5 TlogProofs6 SlogModel SlogProofs SlogProofs2 SlogProofs3 SlogProofs4 SlogProofs5 SlogProofs6 FdcSpec.
Local Open Scope R_scope.

Lemma some_mul a b : exists c, fpose_mul a b c.
Proof. destruct (some_pose (RProduct (RGiven a) (RGiven b))) as [c P]. inversion P as [|? ? a' b' ? A B M|]; subst. inversion A; inversion B; subst. exists c. exact M. Qed.
Lemma some_inverse a : exists c, fpose_inverse a c.
Proof. destruct (some_pose (RInverse (RGiven a))) as [c P]. inversion P as [| |? a' ? A M]; subst. inversion A; subst. exists c. exact M. Qed.
Lemma inverse_within E d a c r t X : pose_within E d a (r, t) -> E <= 1 / 9 -> norm t + d <= X -> X <= 2 ^ 900 -> fpose_inverse a c ->
  pose_within E ((E + 6 * u) * X + 7 * h + d) c (mtrans r, mvec (mtrans r) (vneg t)).
Proof.
  intros ((Fa & R & A) & Ft & D) HE HX HB (M & V). cbn [fst snd] in *. pose proof (norm_near (vval (ftrans a)) t) as Na.
  assert (P5 : 2 ^ 900 <= 2 ^ 995) by (apply Rle_pow; [lra|lia]). pose proof u_pos as U.
  assert (Vn : vval (fvneg (ftrans a)) = vneg (vval (ftrans a))) by (unfold vval, fvneg, vneg, fneg, val; cbn [fx fy fz vx vy vz]; rewrite !B2R_Bopp; reflexivity).
  assert (Fn : vfinite (fvneg (ftrans a))) by (destruct Ft as (? & ? & ?); unfold vfinite, fvneg, fneg, finite; cbn [fx fy fz]; rewrite !is_finite_Bopp; repeat split; assumption).
  assert (Rt : mfinite (fmtrans (frot a))) by (destruct Fa as (? & ? & ? & ? & ? & ? & ? & ? & ?); repeat split; assumption).
  assert (At : apart (mval (fmtrans (frot a))) (mtrans r) <= E) by (change (mval (fmtrans (frot a))) with (mtrans (mval (frot a))); rewrite apart_mtrans; exact A).
  assert (E0 : 0 <= E) by (eapply Rle_trans; [apply apart_pos|exact A]).
  destruct (rotated (fmtrans (frot a)) (mtrans r) E (fvneg (ftrans a)) (ftrans c) Rt (rot_mtrans _ R) At HE Fn ltac:(rewrite Vn, norm_neg; lra) V) as [Fv Dv].
  split; [split; [cbn [fst]; rewrite M; exact Rt|split; [apply rot_mtrans, R|cbn [fst snd]; rewrite M; exact At]]|]. split; [exact Fv|]. cbn [snd].
  rewrite Vn, norm_neg in Dv. eapply Rle_trans; [apply (norm_triangle_sub _ (mvec (mtrans r) (vneg (vval (ftrans a)))))|].
  assert (D2 : norm (vsub (mvec (mtrans r) (vneg (vval (ftrans a)))) (mvec (mtrans r) (vneg t))) = norm (vsub (vval (ftrans a)) t)).
  { replace (vsub (mvec (mtrans r) (vneg (vval (ftrans a)))) (mvec (mtrans r) (vneg t))) with (mvec (mtrans r) (vneg (vsub (vval (ftrans a)) t))) by vring.
    rewrite rot_norm by (apply rot_mtrans, R). apply norm_neg. }
  rewrite D2. assert ((E + 6 * u) * norm (vval (ftrans a)) <= (E + 6 * u) * X) by (apply Rmult_le_compat_l; lra). lra.
Qed.
Lemma product_within E1 E2 d1 d2 a b c r t q s X Y : pose_within E1 d1 a (r, t) -> pose_within E2 d2 b (q, s) -> E1 <= 1 / 9 -> E2 <= 1 / 9 ->
  norm t + d1 <= X -> X <= 2 ^ 900 -> norm s + d2 <= Y -> Y <= 2 ^ 900 -> fpose_mul a b c ->
  pose_within (E1 + E2 + E1 * E2 + 11 * u) ((E1 + 8 * u) * Y + u * X + 8 * h + d1 + d2) c (mmul r q, vadd (mvec r s) t).
Proof.
  intros ((Fa & R & A) & Ft & D1) ((Fb & Q & B) & Fs & D2) HE1 HE2 HX BX HY BY (M & v & V & S). cbn [fst snd] in *.
  pose proof (norm_near (vval (ftrans a)) t) as Na. pose proof (norm_near (vval (ftrans b)) s) as Nb. pose proof u_pos as U. pose proof h_pos as Hp. pose proof h_small_u as Hs. pose proof sqrt3_le as Q3.
  assert (P5 : 2 ^ 900 <= 2 ^ 995) by (apply Rle_pow; [lra|lia]). assert (P10 : 4 * 2 ^ 900 <= 2 ^ 1000) by (replace 4 with (2 ^ 2) by ring; rewrite pow_sum; apply Rle_pow; [lra|lia]). assert (P1 : 1 <= 2 ^ 900) by (apply pow_R1_Rle; lra).
  assert (E10 : 0 <= E1) by (eapply Rle_trans; [apply apart_pos|exact A]). assert (E20 : 0 <= E2) by (eapply Rle_trans; [apply apart_pos|exact B]). pose proof (norm_nonneg (vval (ftrans b))) as Nb0. pose proof (norm_nonneg (vval (ftrans a))) as Na0.
  pose proof (size_apart (mval (frot a)) r) as SA. rewrite (size_rot r R) in SA. pose proof (size_apart (mval (frot b)) q) as SB. rewrite (size_rot q Q) in SB. pose proof (size_pos (mval (frot a))) as PA. pose proof (size_pos (mval (frot b))) as PB.
  destruct (fmmul_error _ _ _ Fa Fb ltac:(lra) ltac:(lra) M) as [Fm Em].
  split; [split; [exact Fm|split; [apply rot_mmul; assumption|]]|].
  - cbn [fst snd]. eapply Rle_trans; [apply (apart_triangle _ (mmul (mval (frot a)) (mval (frot b))))|]. pose proof (apart_mmul _ _ (mval (frot b)) _ R Q : apart (mmul (mval (frot a)) (mval (frot b))) (mmul r q) <= _) as T.
    assert (W : size (mval (frot a)) * size (mval (frot b)) <= 1844 / 1000 * (1844 / 1000)) by (apply Rmult_le_compat; lra).
    assert (u * (size (mval (frot a)) * size (mval (frot b))) <= u * (1844 / 1000 * (1844 / 1000))) by (apply Rmult_le_compat_l; lra).
    assert (apart (mval (frot a)) r * apart (mval (frot b)) q <= E1 * E2) by (apply Rmult_le_compat; try lra; apply apart_pos).
    assert (12 * h <= u / 10) by (rewrite u_num in *; lra). lra.
  - destruct (rotated (frot a) r E1 (ftrans b) v Fa R A HE1 Fs ltac:(lra) V) as [Fv Dv].
    pose proof (norm_near (vval v) (mvec r (vval (ftrans b)))) as Nv. rewrite rot_norm in Nv by exact R.
    assert (K : (E1 + 6 * u) * norm (vval (ftrans b)) <= (E1 + 6 * u) * Y) by (apply Rmult_le_compat_l; lra).
    assert (K2 : (E1 + 6 * u) * Y <= 1 / 2 * Y) by (apply Rmult_le_compat_r; [lra|rewrite u_num; lra]). assert (h1 : h <= / 1000000) by (rewrite u_num in *; lra).
    assert (Nv' : norm (vval v) <= 15 / 10 * Y + 7 * h) by lra.
    destruct (fvadd_error v (ftrans a) Fv Ft) as [Fs' Ds]; [lra|lra|]. rewrite S. split; [exact Fs'|]. cbn [snd].
    assert (Ds' : norm (vsub (vval (fvadd v (ftrans a))) (vadd (vval v) (vval (ftrans a)))) <= u * (15 / 10 * Y + 7 * h + X)).
    { eapply Rle_trans; [exact Ds|]. apply Rmult_le_compat_l; [lra|]. eapply Rle_trans; [apply norm_triangle|]. lra. }
    eapply Rle_trans; [apply (norm_triangle_sub _ (vadd (vval v) (vval (ftrans a))))|].
    assert (T1 : norm (vsub (vadd (vval v) (vval (ftrans a))) (vadd (mvec r s) t)) <= norm (vsub (vval v) (mvec r s)) + norm (vsub (vval (ftrans a)) t)).
    { replace (vsub (vadd (vval v) (vval (ftrans a))) (vadd (mvec r s) t)) with (vadd (vsub (vval v) (mvec r s)) (vsub (vval (ftrans a)) t)) by vring. apply norm_triangle. }
    assert (T2 : norm (vsub (vval v) (mvec r s)) <= norm (vsub (vval v) (mvec r (vval (ftrans b)))) + norm (vsub (vval (ftrans b)) s)).
    { eapply Rle_trans; [apply (norm_triangle_sub _ (mvec r (vval (ftrans b))))|]. apply Rplus_le_compat_l.
      replace (vsub (mvec r (vval (ftrans b))) (mvec r s)) with (mvec r (vsub (vval (ftrans b)) s)) by vring. rewrite rot_norm by exact R. apply Rle_refl. }
    assert (u * h <= / 1000000 * h) by (apply Rmult_le_compat_r; [lra|rewrite u_num; lra]). assert (0 <= u * Y) by (apply Rmult_le_pos; lra). lra.
Qed.
