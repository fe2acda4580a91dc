(** C89: the inverse of a screw. *)
From Coq Require Import Reals ZArith Lia Lra List Psatz.
From Flocq Require Import Core BinarySingleNaN.
From Verif Require Import Cpp FloatModel FloatSpec FloatProofs NrmSpec Vec RotSpec GeomModel RotProofs DiffProofs ScrewSpec FdcSpec SymProofs CoeffProofs LieProofs FdcProofs2 FdcProofs3 DriftModel DriftSpec DriftProofs DriftProofs2 SpinModel SpinSpec SpinProofs SpinProofs2 SpinProofs3 TwistModel TwistProofs TwistProofs2 TwistProofs3 TlogModel TlogProofs TlogProofs4 TlogProofs5 TlogProofs6 SlogModel SlogProofs SlogProofs5 SlogProofs6 SlogProofs8 FtsModel FtsProofs FpsModel FstModel.
Import ListNotations.
Local Open Scope R_scope.

(** ** The inverse of a screw *)
Lemma coeff_square L : ca L * ca L + cb L * cb L * (L * L) = 2 * cb L.
Proof.
  unfold ca, cb, wa, wb. destruct (Req_EM_T L 0) as [->|N]; [lra|]. pose proof (sin2_cos2 L) as Q. unfold Rsqr in Q.
  replace (sin L / L * (sin L / L) + _) with ((sin L * sin L + (1 - cos L) * (1 - cos L)) / (L * L)) by (field; exact N).
  replace (2 * ((1 - cos L) / (L * L))) with ((2 * (1 - cos L)) / (L * L)) by (field; exact N). f_equal. lra.
Qed.
Lemma neg_norm w : norm (vneg w) = norm w. Proof. unfold norm. f_equal. unfold norm2. vring. Qed.
Lemma screw_back w v : mvec (mexp w) (screw (vneg w) v 1) = screw w v 1.
Proof.
  assert (O : vscale 1 w = w) by vring. pose proof (screw_ode w v 1) as D. pose proof (mexp_axis 1 w) as A. rewrite O in D, A. rewrite screw_coeffs in D.
  pose proof (rot_cross (mexp w) w v (mexp_rot w)) as C. rewrite A, D in C. rewrite !screw_coeffs, neg_norm. pose proof (coeff_square (norm w)) as Q.
  set (a := ca (norm w)) in *. set (b := cb (norm w)) in *. set (c := cc (norm w)) in *. generalize dependent (mexp w). intros r D A C. clearbody a b c.
  replace (mvec r _) with (vadd (vsub (vscale a (mvec r v)) (vscale b (mvec r (cross w v)))) (vscale (c * dot w v) (mvec r w))) by vring.
  rewrite A, <- C, D. rewrite norm_sqr in Q.
  transitivity (vadd (vadd (vadd (vscale a v) (vscale b (cross w v))) (vscale (c * dot w v) w)) (vscale (a * a + b * b * norm2 w - 2 * b) (cross w v))); [unfold norm2; vring|].
  rewrite Q. vring.
Qed.
Lemma screw_inverse w v : screw (vneg w) (vneg v) 1 = mvec (mtrans (mexp w)) (vneg (screw w v 1)).
Proof.
  rewrite <- (screw_back w v). replace (vneg (mvec (mexp w) (screw (vneg w) v 1))) with (mvec (mexp w) (vneg (screw (vneg w) v 1))) by (generalize (mexp w) (screw (vneg w) v 1); intros; vring).
  rewrite <- mvec_mmul. destruct (mexp_rot w) as [O _]. rewrite O. rewrite !screw_coeffs. generalize (ca (norm (vneg w))) (cb (norm (vneg w))) (cc (norm (vneg w))). intros. vring.
Qed.
