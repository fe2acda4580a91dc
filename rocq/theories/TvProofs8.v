(** C89: telling the identity from the other test elements. *)
From Coq Require Import Reals ZArith Lia Lra List Psatz.
From Flocq Require Import Core BinarySingleNaN.
From Verif Require Import Cpp FloatModel FloatSpec FloatProofs NrmSpec Vec RotSpec GeomModel RotProofs CoeffProofs LieProofs ApproxProofs DriftModel DriftSpec DriftProofs DriftProofs2 SpinModel SpinSpec SpinProofs SpinProofs2 SpinProofs3 TwistModel TwistProofs3 TlogModel TlogProofs TlogProofs4 SlogProofs5 FtsModel FpsModel FstModel FapModel FapSpec FapProofs FapProofs2 FapProofs3 FapProofs4 FapProofs5 AdjModel AdjSpec TvModel TvSpec TvProofs TvProofs2 TvProofs3 TvProofs4 TvProofs6.
Import ListNotations.
Local Open Scope R_scope.

(** ** How far a rotation is from the identity *)
Lemma tr_mexp w : tr (mexp w) = 1 + 2 * cos (norm w).
Proof. destruct (vec3_polar w) as (a & A & E). rewrite E at 1. rewrite mexp_unit by exact A. apply tr_angle_axis, A. Qed.
Lemma apart_identity w : apart mid (mexp w) * apart mid (mexp w) = 4 * (1 - cos (norm w)).
Proof.
  unfold apart. rewrite size_sqr. pose proof (tr_mexp w) as T. pose proof (size_sqr (mexp w)) as Q. rewrite (size_rot _ (mexp_rot w)), sqrt_sqrt in Q by lra.
  generalize dependent (mexp w). intros m T Q. unfold sq, row0, row1, row2, norm2, dot, madd, mscale, mid, tr in *. destruct m as [a b c d e f g j k]. cbn [m00 m01 m02 m10 m11 m12 m20 m21 m22 vx vy vz] in *. lra.
Qed.
Lemma apart_from_identity w x : norm w <= 31318 / 10000 -> 0 <= x <= 1 -> x <= norm w -> x <= apart mid (mexp w).
Proof.
  intros N X H. pose proof (size_pos (madd mid (mscale (-1) (mexp w)))) as P. fold (apart mid (mexp w)) in P. pose proof (apart_identity w) as E. set (y := apart mid (mexp w)) in *. set (L := norm w) in *.
  assert (K : x * x <= 4 * (1 - cos L)); [|destruct (Rle_lt_dec x y) as [|C]; [assumption|nra]].
  destruct (Rle_lt_dec L 2) as [Z|Z].
  - destruct (cos_bounds L ltac:(lra)) as [_ B]. unfold cos6 in B. assert (Q : 0 <= L * L <= 4) by nra. set (q := L * L) in *. replace (L ^ 2) with q in B by (unfold q; ring). replace (L ^ 4) with (q * q) in B by (unfold q; ring). replace (L ^ 6) with (q * q * q) in B by (unfold q; ring). replace (L ^ 8) with (q * q * q * q) in B by (unfold q; ring).
    assert (x * x <= q) by (unfold q; nra). assert (0 <= q * q <= 4 * q) by nra. assert (0 <= q * q * q) by nra. assert (q * q * q * q <= 4 * (q * q * q)) by nra. lra.
  - assert (cos L <= 0); [|nra]. pose proof PI_low. pose proof PI_bounds. apply cos_le_0; lra.
Qed.
(** ** The elements *)
Lemma identity_stands m : fso3_exp (thrice (of_int 0)) m -> stands_for 0 (m, mid).
Proof.
  intro X. change (thrice (of_int 0)) with fvzero in X. destruct fvzero_val as [F V]. destruct (exp_zero fvzero m F V X) as [G W]. split; [exact G|]. split; [apply mid_rotation|]. cbn [fst snd]. rewrite W, apart_self. lra.
Qed.
Lemma sound_exp_by v m : sound3 v -> fso3_exp v m -> stands_for (64 * u) (m, mexp (vval v)).
Proof.
  intros (F & _ & N) X. pose proof big_490. apply (stands_weaker ((51 + 4 * norm (vval v)) * u)); [apply exp_near; [exact F|lra|apply mexp_by|exact X]|].
  apply Rmult_le_compat_r; [rewrite u_num; lra|lra].
Qed.
Lemma told_apart v i m c : sound3 v -> / 10 ^ 11 / 2 <= norm (vval v) -> fso3_exp (thrice (of_int 0)) i -> fso3_exp v m -> fso3_is_approx i m c -> c = false.
Proof.
  intros S N I M C. pose proof (sound_exp_by v m S M) as B. apply (rot_compare 0 (64 * u) i m mid _ c (identity_stands i I) B); [rewrite u_num; lra|exact C|].
  pose proof (apart_from_identity (vval v) (/ 10 ^ 11 / 2) ltac:(apply S) ltac:(lra) N). rewrite tolerance_num, u_num. lra.
Qed.
Lemma not_told v i m c : vfinite v -> vval v = vzero -> fso3_exp (thrice (of_int 0)) i -> fso3_exp v m -> fso3_is_approx i m c -> c = true.
Proof.
  intros F V I M C. destruct (exp_zero v m F V M) as [G W]. assert (S : stands_for 0 (m, mid)) by (split; [exact G|]; split; [apply mid_rotation|]; cbn [fst snd]; rewrite W, apart_self; lra).
  apply (rot_compare _ _ _ _ _ _ c (identity_stands i I) S); [lra|exact C|]. rewrite apart_self, tolerance_num. lra.
Qed.
Lemma reaches_norm b v : reaches b v -> b <= norm (vval v).
Proof.
  intro R. assert (E : Rabs (val (fx v)) <= norm (vval v) /\ Rabs (val (fy v)) <= norm (vval v) /\ Rabs (val (fz v)) <= norm (vval v)).
  { destruct v as [x y z]. pose proof (norm_sqr (vval (FV x y z))) as Q. pose proof (norm_nonneg (vval (FV x y z))) as P. unfold norm2, dot, vval in Q. cbn [vx vy vz fx fy fz] in *. set (n := norm _) in *. repeat split; apply Rabs_le; split; nra. }
  destruct R as [R|[R|R]]; lra.
Qed.
Lemma tiny_reaches v : vfinite v -> vwithin 1 v -> reaches (/ 100000) v -> / 10 ^ 11 / 2 <= norm (vval (fscale test_tiny v)).
Proof.
  intros (A & B & C) (X & Y & Z) R. apply reaches_norm.
  assert (T : finite test_tiny /\ 999998 / 1000000000000 <= val test_tiny <= 1000002 / 1000000000000).
  { destruct (any_ratio 1 1000000) as [F E]; [lia|lia|lra|]. fold test_tiny in F, E. split; [exact F|]. apply Rabs_le_inv in E. pose proof h_tiny' as H1. assert (/ 10 ^ 60 <= / 10 ^ 20) by (apply Rinv_le_contravar; [apply pow_lt; lra|apply Rle_pow; [lra|lia]]). rewrite u_num in E. lra. }
  destruct T as [FT T]. assert (h10 : h <= / 10 ^ 20) by (pose proof h_tiny' as H1; assert (/ 10 ^ 60 <= / 10 ^ 20) by (apply Rinv_le_contravar; [apply pow_lt; lra|apply Rle_pow; [lra|lia]]); lra).
  assert (W : forall x, finite x -> Rabs (val x) <= 1 -> / 100000 <= Rabs (val x) -> / 10 ^ 11 / 2 <= Rabs (val (fmul test_tiny x))).
  { intros x F L K. destruct (scaled_entry test_tiny x (1000002 / 1000000000000) FT F ltac:(lra) ltac:(lra) L) as (G & _ & V). rewrite V. pose proof (rd_any (val test_tiny * val x)) as E.
    assert (P : 999998 / 1000000000000 * / 100000 <= Rabs (val test_tiny * val x)) by (rewrite Rabs_mult, (Rabs_right (val test_tiny)) by lra; apply Rmult_le_compat; lra).
    assert (Q : Rabs (val test_tiny * val x) <= Rabs (rd (val test_tiny * val x)) + Rabs (rd (val test_tiny * val x) - val test_tiny * val x)) by (replace (val test_tiny * val x) with (rd (val test_tiny * val x) + - (rd (val test_tiny * val x) - val test_tiny * val x)) at 1 by ring; eapply Rle_trans; [apply Rabs_triang|]; rewrite Rabs_Ropp; lra).
    rewrite u_num in E. lra. }
  unfold reaches, fscale in *. cbn [fx fy fz]. destruct R as [R|[R|R]]; auto.
Qed.
Lemma ones_reach v : v = thrice (of_int 1) \/ v = thrice (fneg (of_int 1)) -> / 10 ^ 11 / 2 <= norm (vval v).
Proof.
  intro E. apply Rle_trans with 1; [lra|]. apply reaches_norm. left. destruct of_int_1 as [_ V]. destruct E as [-> | ->]; cbn [thrice fx]; rewrite ?fneg_val, V, ?Rabs_Ropp, Rabs_R1; lra.
Qed.
Lemma far_3 {S} (draw : source S) x s count l : uniform draw -> (forall j, reaches (/ 100000) (drawn3 draw s (3 * j))) -> so3_algebra_elements draw x s count = Ok l ->
  exists rest, l = thrice (of_int 0) :: rest /\ forall v, In v rest -> / 10 ^ 11 / 2 <= norm (vval v).
Proof.
  intros U R E. apply elements3 in E. destruct E as (rest & -> & L & N). eexists. split; [reflexivity|]. intros v [<-|[<-|[<-|[<-|I]]]]; [apply ones_reach; auto|apply ones_reach; auto| | |].
  - pose proof large_bound as (_ & _ & B). lra.
  - destruct (drawn3_bound draw s 0 U). apply tiny_reaches; [assumption|assumption|]. apply (R 0%nat).
  - apply In_nth_error in I. destruct I as [j J]. assert (J' : (j < Z.to_nat count - 5)%nat) by (rewrite <- L; apply nth_error_Some; congruence). rewrite N in J by exact J'. injection J as <-.
    specialize (R (1 + j)%nat). replace (3 * (1 + j))%nat with (3 + 3 * j)%nat in R by lia. apply reaches_norm in R. apply Rle_trans with (2 := R). lra.
Qed.
Lemma far_6 {S} (draw : source S) x s count l : uniform draw -> (forall j, reaches (/ 100000) (drawn3 draw s (3 + 6 * j))) -> se3_algebra_elements draw x s count = Ok l ->
  exists rest, l = FT (thrice (of_int 0)) (thrice (of_int 0)) :: rest /\ forall v, In v rest -> / 10 ^ 11 / 2 <= norm (vval (frot_part v)).
Proof.
  intros U R E. apply elements6 in E. destruct E as (rest & -> & L & N). eexists. split; [reflexivity|]. intros v [<-|[<-|[<-|[<-|I]]]]; [apply ones_reach; auto|apply ones_reach; auto| | |].
  - pose proof large_bound as (_ & _ & B). cbn [frot_part]. lra.
  - destruct (drawn3_bound draw s 3 U). unfold ftscale, drawn6. cbn [frot_part]. apply tiny_reaches; [assumption|assumption|]. apply (R 0%nat).
  - apply In_nth_error in I. destruct I as [j J]. assert (J' : (j < Z.to_nat count - 5)%nat) by (rewrite <- L; apply nth_error_Some; congruence). rewrite N in J by exact J'. injection J as <-.
    specialize (R (1 + j)%nat). replace (3 + 6 * (1 + j))%nat with (9 + 6 * j)%nat in R by lia. apply reaches_norm in R. apply Rle_trans with (2 := R). lra.
Qed.
Lemma equality_3 v i m : sound3 v -> / 10 ^ 11 / 2 <= norm (vval v) -> fso3_exp (thrice (of_int 0)) i -> fso3_exp v m -> passes (so3_equality i m).
Proof.
  intros S N I M. split.
  - destruct (approx_some (fcoefs m) (fcoefs m)) as [p P]. destruct (approx_some (fcoefs i) (fcoefs m)) as [q Q]. eexists. exists p, q. split; [exact P|]. split; [exact Q|reflexivity].
  - intros c (p & q & P & Q & ->). rewrite (told_apart v i m q S N I M Q). assert (p = true) as ->; [|reflexivity]. apply (self_mat m p P). apply (sound_exp_by v m S M).
Qed.
Lemma equality_6 a i g : sound6 a -> / 10 ^ 11 / 2 <= norm (vval (frot_part a)) -> fse3_exp (thrice (of_int 0)) (thrice (of_int 0)) i -> fse3_exp (frot_part a) (ftrans_part a) g -> passes (se3_equality i g).
Proof.
  intros A N I G. destruct (pose_tests a g A G) as ((_ & C) & _). split.
  - destruct (some_pose g g) as [p P], (some_pose i g) as [q Q]. eexists. exists p, q. split; [exact P|]. split; [exact Q|reflexivity].
  - intros c (p & q & P & (q1 & q2 & Q1 & Q2 & ->) & ->). rewrite (told_apart (frot_part a) _ _ q1 (proj1 A) N (proj1 I) (proj1 G) Q1). rewrite (C p P). reflexivity.
Qed.
