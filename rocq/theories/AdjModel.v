(** Model of adjoint matrices, brackets and distances in double precision:
    resim/transforms/so3.cc, se3.cc, cross_matrix.cc and the checks of liegroup_test.cc.
    Frames are left out; C14-C16 and C27 cover them. *)
From Coq Require Import ZArith List.
From Flocq Require Import Core BinarySingleNaN.
From Verif Require Import Cpp FloatModel DriftModel SpinModel TwistModel TlogModel FpsModel FmjModel LenModel FstModel FapModel.
Import ListNotations.

(** cross_matrix: cross_matrix.cc:11-19. *)
Definition fcross_matrix (v : fvec) : fmat :=
  let o := of_int 0 in
  FM o (fneg (fz v)) (fy v) (fz v) o (fneg (fx v)) (fneg (fy v)) (fx v) o.
(** SO3::adjoint(alg) * b (so3.cc:117-119, liegroup_test.cc:129). *)
Definition fso3_matrix_times (alg b result : fvec) : Prop := fmvec (fcross_matrix alg) b result.

(** SE3::TangentMapping as its four blocks (se3.cc:160-181). *)
Record fmap6 := FM6 { top_left : fmat; top_right : fmat; bottom_left : fmat; bottom_right : fmat }.
(** setZero() (se3.cc:164, 177). *)
Definition fmzero : fmat := let o := of_int 0 in FM o o o o o o o o o.
(** SE3::adjoint(): se3.cc:160-168. *)
Definition fse3_adjoint (g : fpose) (m : fmap6) : Prop :=
  exists c, fmmul (fcross_matrix (ftrans g)) (frot g) c /\ m = FM6 (frot g) fmzero c (frot g).
(** SE3::adjoint(alg): se3.cc:170-181. *)
Definition fse3_algebra_adjoint (alg : ftan) : fmap6 :=
  let adj_rot := fcross_matrix (frot_part alg) in
  FM6 adj_rot fmzero (fcross_matrix (ftrans_part alg)) adj_rot.
(** A coefficient of the product of a 6x6 matrix and a vector, the sum taken in any order
    (liegroup_test.cc:118, 129). *)
Definition frow6 (a0 a1 a2 b0 b1 b2 : f64) (v : ftan) : f64 -> Prop :=
  fsum_of [fmul a0 (fx (frot_part v)); fmul a1 (fy (frot_part v)); fmul a2 (fz (frot_part v));
           fmul b0 (fx (ftrans_part v)); fmul b1 (fy (ftrans_part v)); fmul b2 (fz (ftrans_part v))].
(** Three rows of it (liegroup_test.cc:118, 129). *)
Definition frows6 (a b : fmat) (v : ftan) (w : fvec) : Prop :=
  frow6 (f00 a) (f01 a) (f02 a) (f00 b) (f01 b) (f02 b) v (fx w) /\
  frow6 (f10 a) (f11 a) (f12 a) (f10 b) (f11 b) (f12 b) v (fy w) /\
  frow6 (f20 a) (f21 a) (f22 a) (f20 b) (f21 b) (f22 b) v (fz w).
(** adjoint() * alg and adjoint(a) * b (liegroup_test.cc:118, 129). *)
Definition fmap6_times (m : fmap6) (v result : ftan) : Prop :=
  frows6 (top_left m) (top_right m) v (frot_part result) /\ frows6 (bottom_left m) (bottom_right m) v (ftrans_part result).

(** Eigen's isZero (Eigen/src/Core/CwiseNullaryOp.h) of the coefficients of a vector
    (liegroup_test.cc:132, 146). *)
Definition fis_zero (l : list f64) (precision : f64) : bool := forallb (fun x => fle (fabs x) (fmul (fabs (of_int 1)) precision)) l.
(** TOLERANCE: liegroup_test.cc:131, 145. *)
Definition test_tolerance : f64 := fdivide (of_int 1) (of_int (10 ^ 9)).
(** The coefficients of SE3::TangentVector: se3.cc:240-247. *)
Definition ftcoords (v : ftan) : list f64 := fcoords (frot_part v) ++ fcoords (ftrans_part v).
(** AlgebraAdjointAntiCommutative: liegroup_test.cc:136-148. *)
Definition so3_anticommutes (a b : fvec) : bool := fis_zero (fcoords (fvadd (fcross a b) (fcross b a))) test_tolerance.
(** The same of SE3: liegroup_test.cc:136-148. *)
Definition se3_anticommutes (a b : ftan) : bool := fis_zero (ftcoords (ftadd (flie_bracket a b) (flie_bracket b a))) test_tolerance.
(** AdjointAndTimesAlgebra: liegroup_test.cc:123-134. *)
Definition so3_algebra_agrees (a b : fvec) (result : bool) : Prop :=
  exists alt, fso3_matrix_times a b alt /\ result = fis_zero (fcoords (fvsub (fcross a b) alt)) test_tolerance.
(** The same of SE3: liegroup_test.cc:123-134. *)
Definition se3_algebra_agrees (a b : ftan) (result : bool) : Prop :=
  exists alt, fmap6_times (fse3_algebra_adjoint a) b alt /\ result = fis_zero (ftcoords (ftsub (flie_bracket a b) alt)) test_tolerance.
(** AdjointAndTimesGroup: liegroup_test.cc:112-121. *)
Definition se3_group_agrees (g : fpose) (alg : ftan) (result : bool) : Prop :=
  exists times m alt, fadjoint_times g alg times /\ fse3_adjoint g m /\ fmap6_times m alg alt /\ fis_approx (ftcoords times) (ftcoords alt) result.
(** SelfAdjointNoop: liegroup_test.cc:91-99. *)
Definition so3_noop (alg : fvec) (result : bool) : Prop :=
  exists a_from_b log alg_noop, fso3_exp alg a_from_b /\ fso3_log a_from_b log /\ fmvec a_from_b log alg_noop /\ fvec_is_approx alg alg_noop result.
(** CompositionByAdjoint: liegroup_test.cc:101-110. *)
Definition so3_by_adjoint (a_from_b b_from_c : fmat) (result : bool) : Prop :=
  exists ref log moved e a_from_c, fmmul a_from_b b_from_c ref /\ fso3_log b_from_c log /\ fmvec a_from_b log moved /\ fso3_exp moved e /\
    fmmul e a_from_b a_from_c /\ fso3_is_approx ref a_from_c result.

(** se3_distance and se3_inverse_distance: se3.cc:267-275. *)
Definition fse3_distance (a b : fpose) (d : f64) : Prop := fnorm (fvsub (ftrans a) (ftrans b)) d.
