(** C89: the tests of single poses pass. *)
From Coq Require Import Reals ZArith Lia Lra List Psatz.
From Flocq Require Import Core BinarySingleNaN.
From Verif Require Import Cpp FloatModel FloatSpec FloatProofs NrmSpec Vec RotSpec GeomModel RotProofs DiffProofs ScrewSpec FdcSpec SymProofs CoeffProofs LieProofs FdcProofs2 FdcProofs3 DriftModel DriftSpec DriftProofs DriftProofs2 SpinModel SpinSpec SpinProofs SpinProofs2 SpinProofs3 TwistModel TwistProofs TwistProofs2 TwistProofs3 TlogModel TlogProofs TlogProofs4 TlogProofs5 TlogProofs6 SlogModel SlogProofs SlogProofs5 SlogProofs6 SlogProofs8 FtsModel FtsProofs FpsModel FstModel FapModel FapSpec FapProofs FapProofs2 FapProofs3 FapProofs4 FapProofs5 AdjModel AdjSpec AdjProofs AdjProofs2 AdjProofs3 AdjProofs7 TvModel TvSpec TvProofs TvProofs2 TvProofs3 TvProofs4 TvProofs5.
Import ListNotations.
Local Open Scope R_scope.

(** ** Poses *)
Lemma PI_low : 31318 / 10000 < PI.
Proof.
  destruct (Rlt_or_le (31318 / 10000) PI) as [|C]; [assumption|]. exfalso. pose proof three_lt_PI as P3.
  assert (B : 0 <= 15659 / 10000 <= 2) by lra. destruct (cos_bounds _ B) as [H _]. unfold cos6 in H.
  assert (cos (15659 / 10000) <= 0) by (apply cos_le_0; lra). lra.
Qed.
Definition slack (L : R) : R := 76 + 203 / 100 / Rmax L (19 / 10000).
Lemma slack_bound L : 0 <= slack L <= 11445 / 10 /\ (/ 100 <= L -> slack L <= 279).
Proof.
  unfold slack. assert (M : 0 < Rmax L (19 / 10000)) by (apply Rlt_le_trans with (19 / 10000); [lra|apply Rmax_r]).
  assert (I : / Rmax L (19 / 10000) <= / (19 / 10000)) by (apply Rinv_le_contravar; [lra|apply Rmax_r]). assert (P : 0 < / Rmax L (19 / 10000)) by (apply Rinv_0_lt_compat, M). unfold Rdiv.
  split; [lra|]. intro H. assert (/ Rmax L (19 / 10000) <= / (/ 100)); [|lra]. apply Rinv_le_contravar; [lra|]. apply Rle_trans with (1 := H), Rmax_l.
Qed.
Lemma sound_pose w v g : sound3 w -> vfinite v -> vwithin 1000000 v -> fse3_exp w v g ->
  stands_for (64 * u) (frot g, mexp (vval w)) /\ vfinite (ftrans g) /\
  norm (vsub (vval (ftrans g)) (screw (vval w) (vval v) 1)) <= slack (norm (vval w)) * u * norm (vval v) + 33 * h /\ norm (vval v) <= 2000000.
Proof.
  intros (F & W & N) G B X. pose proof big_490 as B4. assert (T : norm (vval v) <= 2000000) by (apply (within_norm 1000000 2000000 v ltac:(lra) B); lra).
  assert (P5 : 2000000 <= 2 ^ 500) by (apply Rle_trans with (2 ^ 21); [lra|apply Rle_pow; [lra|apply Nat.leb_le; reflexivity]]).
  destruct (se3_exp_near w v (mexp (vval w)) g F G ltac:(lra) ltac:(lra) (mexp_by _) X) as (S & FT & D). pose proof (norm_nonneg (vval w)). pose proof h_pos as H0. change (bpow radix2 (-1075)) with h in D.
  split; [|split; [exact FT|split; [|exact T]]].
  - apply (stands_weaker _ _ _ S). apply Rmult_le_compat_r; [rewrite u_num; lra|lra].
  - unfold slack. apply Rle_trans with (1 := D). apply Rplus_le_compat_l. apply Rmult_le_compat_r; lra.
Qed.
Lemma pose_tests a g : sound6 a -> fse3_exp (frot_part a) (ftrans_part a) g -> passes (se3_construction g) /\ passes (se3_interp_zero g) /\ passes (se3_interp_one g) /\ passes (se3_exp_of_log g).
Proof.
  intros (S & F & W) X. destruct (sound_pose _ _ _ S F W X) as (A & G & D & T). destruct fine as [E _].
  assert (B : norm (vval (ftrans g)) <= 2 ^ 489).
  { apply near_norms in D. pose proof (screw_bound (vval (frot_part a)) (vval (ftrans_part a)) 1 ltac:(lra)) as SB. destruct (slack_bound (norm (vval (frot_part a)))) as [K _]. pose proof h_1 as H1. pose proof (norm_nonneg (vval (ftrans_part a))) as T0.
    apply Rle_trans with (2 ^ 22); [|apply Rle_pow; [lra|apply Nat.leb_le; reflexivity]]. set (k := slack _) in *. set (t := norm (vval (ftrans_part a))) in *. assert (k * u * t <= 11445 / 10 * u * t) by (apply Rmult_le_compat_r; [exact T0|]; apply Rmult_le_compat_r; [rewrite u_num; lra|apply K]). rewrite u_num in *. lra. }
  split; [|split; [|split]]; apply pass.
  - apply some_pose.
  - intros c C. apply (self_pose g c C). split; [apply A|exact G].
  - destruct (some_se3_interp g (of_int 0)) as [p P]. destruct (some_pose p fpose_identity) as [c C]. exists c, p. auto.
  - intros c (p & P & C). apply (proj1 (pose_interp_ends_same g _ _ p A E G B) P c C).
  - destruct (some_se3_interp g (of_int 1)) as [p P]. destruct (some_pose p g) as [c C]. exists c, p. auto.
  - intros c (p & P & C). apply (proj2 (pose_interp_ends_same g _ _ p A E G B) P c C).
  - destruct (some_se3_log g) as (w & v & L). destruct (some_se3_exp w v) as [p P]. destruct (some_pose p g) as [c C]. exists c, w, v, p. auto.
  - intros c (w & v & p & L & P & C). apply (pose_exp_log_same g _ _ w v p c A E G B L P C).
Qed.
Lemma vneg_val v : vval (fvneg v) = vneg (vval v).
Proof. unfold vval, fvneg, vneg, fneg, val. cbn [fx fy fz vx vy vz]. rewrite !B2R_Bopp. reflexivity. Qed.
Lemma vneg_finite v : vfinite v -> vfinite (fvneg v).
Proof. intros (? & ? & ?). unfold vfinite, fvneg, fneg, finite. cbn [fx fy fz]. rewrite !is_finite_Bopp. repeat split; assumption. Qed.
Lemma vneg_within b v : vwithin b v -> vwithin b (fvneg v).
Proof. unfold vwithin, fvneg, fneg, val. cbn [fx fy fz]. rewrite !B2R_Bopp, !Rabs_Ropp. auto. Qed.
Lemma inverse_test a : sound6 a -> passes (se3_inverse_negative a).
Proof.
  intros (S & F & W). destruct a as [w v]. cbn [frot_part ftrans_part] in *. apply pass.
  - destruct (some_se3_exp w v) as [e E]. destruct (some_inverse e) as [i I]. destruct (some_se3_exp (fvneg w) (fvneg v)) as [p P]. destruct (some_pose i p) as [c C]. exists c, e, i, p. auto.
  - intros c (e & i & p & E & I & P & m & q & M & Q & ->). cbn [ftneg frot_part ftrans_part] in *.
    assert (S' : sound3 (fvneg w)) by (destruct S as (A & B & C); split; [apply vneg_finite, A|]; split; [apply vneg_within, B|]; rewrite vneg_val, norm_neg; exact C).
    destruct (sound_pose _ _ _ S F W E) as (A & G & D & T). destruct (sound_pose _ _ _ S' (vneg_finite _ F) (vneg_within _ _ W) P) as (A' & G' & D' & _). rewrite !vneg_val, !norm_neg in D'.
    pose proof (proj1 I) as IR. rewrite IR in M. rewrite (opposite_same w (frot e) (frot p) m (proj1 S) ltac:(destruct S as (_ & _ & ?); lra) (proj1 E) (proj1 P) M). cbn [andb].
    destruct (slack_bound (norm (vval w))) as [K0 K1]. pose proof (norm_nonneg (vval v)) as T0. pose proof h_pos as H0. pose proof h_1 as H1. pose proof u_num as U.
    set (k := slack (norm (vval w))) in *. set (L := norm (vval w)) in *. set (t := norm (vval v)) in *.
    pose proof (screw_bound (vval w) (vval v) 1 ltac:(lra)) as SB. fold t in SB.
    assert (KT : 0 <= k * u * t <= 11445 / 10 * u * t) by (split; [apply Rmult_le_pos; [apply Rmult_le_pos; [lra|rewrite U; lra]|exact T0]|]; apply Rmult_le_compat_r; [exact T0|]; apply Rmult_le_compat_r; [rewrite U; lra|apply K0]).
    assert (X9 : 1001 / 1000 * t + 33 * h <= 2 ^ 900) by (apply Rle_trans with (2 ^ 22); [lra|apply Rle_pow; [lra|apply Nat.leb_le; reflexivity]]).
    assert (PW : pose_within (64 * u) (k * u * t + 33 * h) e (mexp (vval w), screw (vval w) (vval v) 1)) by (split; [exact A|split; [exact G|exact D]]).
    destruct (inverse_within (64 * u) (k * u * t + 33 * h) e i _ _ (1001 / 1000 * t + 33 * h) PW ltac:(rewrite U; lra) ltac:(rewrite U in *; lra) X9 I) as (_ & GI & DI). cbn [snd] in DI. rewrite <- screw_inverse in DI.
    set (o := screw (vneg (vval w)) (vneg (vval v)) 1) in *.
    assert (NO : norm o = norm (screw (vval w) (vval v) 1)) by (unfold o; rewrite screw_inverse, rot_norm by (apply rot_mtrans, mexp_rot); apply norm_neg).
    pose proof (norm_triangle_sub (vval (ftrans i)) o (vval (ftrans p))) as TR. rewrite (norm_vsub_sym o) in TR. pose proof (near_norms _ _ _ DI) as NI. pose proof (near_norms _ _ _ D') as NP. rewrite NO in NI, NP.
    assert (Big : 4000000 <= 2 ^ 490) by (apply Rle_trans with (2 ^ 22); [lra|apply Rle_pow; [lra|apply Nat.leb_le; reflexivity]]).
    assert (BI : norm (vval (ftrans i)) <= 2 ^ 490) by (rewrite U in *; lra). assert (BP : norm (vval (ftrans p)) <= 2 ^ 490) by (rewrite U in *; lra).
    assert (RM : L <= reach_max) by (unfold reach_max; destruct S as (_ & _ & SN); fold L in SN; pose proof PI_low; lra).
    assert (US : unscrew (vval w) (screw (vval w) (vval v) 1) = vval v) by (apply unscrew_screw; fold L; unfold reach_max in RM; pose proof PI_bounds; lra).
    destruct (Rle_lt_dec L (/ 100)) as [Z|Z].
    + assert (NS : t <= 10001 / 10000 * norm (screw (vval w) (vval v) 1)).
      { pose proof (unscrew_long (vval w) (screw (vval w) (vval v) 1) (10001 / 10000) RM ltac:(lra)) as UL. rewrite US in UL. apply UL. fold L. pose proof (norm_nonneg (vval w)) as L0. fold L in L0. nra. }
      apply (vec_same (ftrans i) (ftrans p) q t (2362 * u) (9998 / 10000) GI G' BI BP T0); try (rewrite U in *; lra); [rewrite tolerance_num; rewrite U in *; lra|exact Q].
    + assert (NS : t <= 187 / 100 * norm (screw (vval w) (vval v) 1)) by (pose proof (unscrew_bound (vval w) (screw (vval w) (vval v) 1) RM) as UL; rewrite US in UL; exact UL).
      assert (KS : k * u * t <= 279 * u * t) by (apply Rmult_le_compat_r; [exact T0|]; apply Rmult_le_compat_r; [rewrite U; lra|apply K1; lra]).
      apply (vec_same (ftrans i) (ftrans p) q t (632 * u) (53 / 100) GI G' BI BP T0); try (rewrite U in *; lra); [rewrite tolerance_num; rewrite U in *; lra|exact Q].
Qed.
