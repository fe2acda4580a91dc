(** Model of the approximate comparisons of SO3, SE3 and tangent vectors in double precision:
    resim/transforms/so3.cc and se3.cc.  Frames are left out; C56 covers them. *)
From Coq Require Import ZArith List.
From Flocq Require Import Core BinarySingleNaN.
From Verif Require Import Cpp FloatModel LenModel DriftModel FstModel.
Import ListNotations.

(** Eigen's dummy_precision of double (Eigen/src/Core/NumTraits.h): the literal 1e-12, the
    default precision of the isApprox called at so3.cc:137 and se3.cc:213. *)
Definition dummy_precision : f64 := fdivide (of_int 1) (of_int (10 ^ 12)).
(** Eigen's numext::mini, which is std::min, inside isApprox (so3.cc:137, se3.cc:213). *)
Definition fmini (x y : f64) : f64 := if flt y x then y else x.
(** cwiseAbs2 of a coefficient (so3.cc:137, se3.cc:213). *)
Definition fabs2 (x : f64) : f64 := fmul x x.
(** Eigen's isApprox (Eigen/src/Core/Fuzzy.h) of two matrices given as their coefficients;
    used at so3.cc:137, se3.cc:213 and two_jet.cc:102-103.  The three sums of squares may each
    be taken in any order. *)
Definition fis_approx (a b : list f64) (result : bool) : Prop :=
  exists d x y,
    fsum_of (map fabs2 (map (fun p => fsub (fst p) (snd p)) (combine a b))) d /\
    fsum_of (map fabs2 a) x /\ fsum_of (map fabs2 b) y /\
    result = fle d (fmul (fmul dummy_precision dummy_precision) (fmini x y)).
(** The coefficients of Eigen::Matrix3d and Eigen::Vector3d (so3.hh:145, se3.hh:168). *)
Definition fcoefs (a : fmat) : list f64 := [f00 a; f01 a; f02 a; f10 a; f11 a; f12 a; f20 a; f21 a; f22 a].
Definition fcoords (v : fvec) : list f64 := [fx v; fy v; fz v].

(** SO3::is_approx_transform: so3.cc:136-138. *)
Definition fso3_is_approx (a b : fmat) (result : bool) : Prop := fis_approx (fcoefs a) (fcoefs b) result.
(** isApprox of Eigen::Vector3d and SO3::TangentVector (se3.cc:213, two_jet.cc:102). *)
Definition fvec_is_approx (v w : fvec) (result : bool) : Prop := fis_approx (fcoords v) (fcoords w) result.
(** SE3::is_approx_transform: se3.cc:211-214. *)
Definition fse3_is_approx (a b : fpose) (result : bool) : Prop :=
  exists p q, fso3_is_approx (frot a) (frot b) p /\ fvec_is_approx (ftrans a) (ftrans b) q /\ result = (p && q)%bool.
(** SE3::identity: se3.cc:53-58. *)
Definition fpose_identity : fpose := FP fmid (FV (of_int 0) (of_int 0) (of_int 0)).
