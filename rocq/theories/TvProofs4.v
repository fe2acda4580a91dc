(** C89: the tests of rotations, and of what zero and the identity become. *)
From Coq Require Import Reals ZArith Lia Lra List Psatz.
From Flocq Require Import Core BinarySingleNaN.
From Verif Require Import Cpp FloatModel FloatSpec FloatProofs NrmSpec Vec RotSpec GeomModel RotProofs CoeffProofs LieProofs DriftModel DriftSpec DriftProofs DriftProofs2 SpinModel SpinSpec SpinProofs SpinProofs2 SpinProofs3 TwistModel TwistProofs3 TlogModel TlogProofs TlogProofs4 TlogProofs5 TlogProofs6 SlogModel SlogProofs6 SlogProofs8 FtsModel FtsProofs FpsModel FstModel FapModel FapSpec FapProofs FapProofs2 FapProofs3 FapProofs4 FapProofs5 AdjModel AdjSpec AdjProofs AdjProofs2 AdjProofs3 AdjProofs7 TvModel TvSpec TvProofs TvProofs2 TvProofs3.
Import ListNotations.
Local Open Scope R_scope.

Lemma fvzero_val : vfinite fvzero /\ vval fvzero = vzero.
Proof. unfold vfinite, vval, fvzero. cbn [fx fy fz]. destruct of_int_0 as [F V]. rewrite V. split; [auto|reflexivity]. Qed.
Lemma near_identity m c : mfinite m -> mval m = mid -> fso3_is_approx fmid m c -> c = true.
Proof.
  intros F V C. assert (S : stands_for 0 (m, mid)) by (split; [exact F|]; split; [apply mid_rotation|]; cbn [fst snd]; rewrite V, apart_self; lra).
  apply (rot_compare _ _ _ _ _ _ c fmid_stands S); [lra|exact C|]. rewrite apart_self, tolerance_num. lra.
Qed.
Lemma zeros_same v w c : vfinite v -> vfinite w -> vval v = vzero -> vval w = vzero -> fvec_is_approx v w c -> c = true.
Proof.
  intros V W A B C. apply (vec_near v w c V W); [|exact C]. rewrite A, B. replace (vsub vzero vzero) with vzero by (unfold vsub, vzero; cbn [vx vy vz]; f_equal; ring). replace (norm vzero) with 0 by (unfold norm, norm2, dot, vzero; cbn [vx vy vz]; rewrite !Rmult_0_l, !Rplus_0_l, sqrt_0; reflexivity). apply Rlt_le, Rinv_0_lt_compat, pow_lt. lra.
Qed.
Lemma exp_of_zero_passes : passes so3_exp_of_zero /\ passes se3_exp_of_zero.
Proof.
  destruct fvzero_val as [F V]. split; apply pass.
  - destruct (some_exp fvzero) as [m M]. destruct (approx_some (fcoefs fmid) (fcoefs m)) as [c C]. exists c, m. auto.
  - intros c (m & M & C). destruct (exp_zero fvzero m F V M) as [G W]. apply (near_identity m c G W C).
  - destruct (some_se3_exp fvzero fvzero) as [g G]. destruct (some_pose fpose_identity g) as [c C]. exists c, g. auto.
  - intros c (g & G & (p & q & P & Q & ->)). destruct (se3_exp_no_turn fvzero fvzero g F F V G) as (A & B & C & D). rewrite V in D. cbn [fpose_identity frot ftrans] in P, Q.
    rewrite (near_identity _ _ A B P). apply (zeros_same _ _ _ F C V D Q).
Qed.
Lemma fmid_symmetric : mtrans (mval fmid) = mval fmid.
Proof. destruct fmid_stands as (_ & _ & A). unfold mval, fmid, imat, mtrans. cbn [f00 f01 f02 f10 f11 f12 f20 f21 f22 m00 m01 m02 m10 m11 m12 m20 m21 m22]. reflexivity. Qed.
Lemma log_of_identity_passes : passes so3_log_of_identity /\ passes se3_log_of_identity.
Proof.
  destruct fvzero_val as [F V]. split; apply pass.
  - destruct (some_log fmid) as [v L]. destruct (approx_some (fcoords v) (fcoords fvzero)) as [c C]. exists c, v. auto.
  - intros c (v & L & C). destruct (log_symmetric fmid 0 v fmid_stands ltac:(lra) fmid_symmetric L) as [G W]. apply (zeros_same _ _ _ G F W V C).
  - destruct (some_se3_log fpose_identity) as (w & v & L). destruct (approx_some (ftcoords (FT w v)) (ftcoords ftzero)) as [c C]. exists c, w, v. auto.
  - intros c (w & v & L & C). destruct (se3_log_no_turn fpose_identity 0 w v fmid_stands ltac:(lra) fmid_symmetric F L) as ([G W] & (H & X)). change (vval (ftrans fpose_identity)) with (vval fvzero) in X. rewrite V in X.
    assert (P5 : 0 <= / 2 ^ 538) by (apply Rlt_le, Rinv_0_lt_compat, pow_lt; lra).
    destruct w as [w1 w2 w3], v as [v1 v2 v3]. destruct G as (? & ? & ?), H as (? & ? & ?), F as (? & ? & ?). unfold vval, vzero in W, X. cbn [fx fy fz fvzero] in W, X. injection W as W1 W2 W3. injection X as X1 X2 X3. pose proof (proj2 of_int_0) as V1.
    apply (approx_near _ _ _ C); unfold ftcoords, fcoords, ftzero, fvzero; cbn [frot_part ftrans_part fx fy fz app map combine diffs fst snd].
    + repeat (apply Forall_cons; [assumption|]). apply Forall_nil.
    + repeat (apply Forall_cons; [assumption|]). apply Forall_nil.
    + unfold diffs. cbn [combine map fst snd]. rewrite W1, W2, W3, X1, X2, X3, V1. repeat (apply Forall_cons; [rewrite Rminus_0_r, Rabs_R0; exact P5|]). apply Forall_nil.
Qed.

(** ** Rotations *)
Lemma rotation_tests a v : sound3 v -> fso3_exp v a -> passes (so3_construction a) /\ passes (so3_interp_zero a) /\ passes (so3_interp_one a) /\ passes (so3_exp_of_log a).
Proof.
  intros S X. destruct (sound_exp v a S X) as (r & R & A). destruct fine as [E _]. split; [|split; [|split]]; apply pass.
  - apply approx_some.
  - intros c C. apply (self_mat a c C). apply A.
  - destruct (some_interp a (of_int 0)) as [p P]. destruct (approx_some (fcoefs p) (fcoefs fmid)) as [c C]. exists c, p. auto.
  - intros c (p & P & C). apply (proj1 (interp_ends_same a r _ p A E) P c C).
  - destruct (some_interp a (of_int 1)) as [p P]. destruct (approx_some (fcoefs p) (fcoefs a)) as [c C]. exists c, p. auto.
  - intros c (p & P & C). apply (proj2 (interp_ends_same a r _ p A E) P c C).
  - destruct (some_log a) as [w L]. destruct (some_exp w) as [p P]. destruct (approx_some (fcoefs p) (fcoefs a)) as [c C]. exists c, w, p. auto.
  - intros c (w & p & L & P & C). apply (exp_log_same a r _ w p c A E L P C).
Qed.
Lemma rotation_pairs a b v w : sound3 v -> fso3_exp v a -> sound3 w -> fso3_exp w b -> passes (so3_by_adjoint a b) /\ forall alg, fso3_log b alg -> passes (so3_group_agrees a alg).
Proof.
  intros S X T Y. destruct (sound_exp v a S X) as (r & R & A). destruct (sound_exp w b T Y) as (q & Q & B). destruct fine as [_ E]. split.
  - split; [apply some_by_adjoint|]. intros c C. apply (by_adjoint a b r q (64 * u) c A B E C).
  - intros alg L. pose proof u_num as U. destruct (log_near b q _ alg B ltac:(rewrite U; lra) L) as (F & N & _). apply (so3_group_passes (64 * u) a r); [exact A|rewrite U; lra|exact F|]. pose proof PI_bounds. rewrite U in N. lra.
Qed.
Lemma within_big b v : vwithin b v -> b <= 1000000 -> vwithin (2 ^ 490) v.
Proof. intros W B. apply (within_weaker _ _ _ W). apply Rle_trans with (2 ^ 20); [lra|apply Rle_pow; [lra|apply Nat.leb_le; reflexivity]]. Qed.
Lemma vector_tests v : sound3 v -> passes (so3_inverse_negative v).
Proof.
  intros (F & _ & N). split.
  - destruct (some_exp v) as [m M], (some_exp (fvneg v)) as [p P]. destruct (approx_some (fcoefs (fmtrans m)) (fcoefs p)) as [c C]. exists c, m, p. auto.
  - intros c (m & p & M & P & C). apply (opposite_same v m p c F ltac:(lra) M P C).
Qed.
Lemma vector_pairs v w : sound3 v -> sound3 w -> passes (so3_algebra_agrees v w) /\ so3_anticommutes v w = true.
Proof.
  intros (F & V & _) (G & W & _). assert (X : vfinite (fcross v w)) by (apply small_cross; [exact F|exact G|apply (within_big _ _ V); lra|apply (within_big _ _ W); lra]).
  split; [|apply so3_check, X]. split; [|intros c C; apply (so3_algebra_check v w c G C), X]. destruct (some_fmvec (fcross_matrix v) w) as [alt A]. eexists. exists alt. split; [exact A|reflexivity].
Qed.
