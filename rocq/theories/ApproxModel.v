(** Model of the approximate comparisons: is_approx and is_approx_transform of SO3, SE3 and
    two-jets.  Over the reals: rounding is not modelled here. *)
From Verif Require Import Cpp UuidModel GeomModel JetModel.
Local Open Scope R_scope.

(** Eigen's isApprox (Eigen/src/Core/Fuzzy.h) with the default precision 1e-12: the squared
    norms [d] of the difference and [a], [b] of the operands.  Used at so3.cc:137,
    se3.cc:213, two_jet.cc:102-103 and 199-200. *)
Definition fuzzy (d a b : R) : bool :=
  if Rle_dec d (/ 10^12 * / 10^12 * Rmin a b) then true else false.
(** cwiseAbs2().sum() of Eigen::Matrix3d and of SE3::TangentVector (so3.cc:137,
    two_jet.cc:102). *)
Definition mnorm2 (m : mat3) : R :=
  m00 m * m00 m + m01 m * m01 m + m02 m * m02 m + m10 m * m10 m + m11 m * m11 m + m12 m * m12 m
  + m20 m * m20 m + m21 m * m21 m + m22 m * m22 m.
Definition tnorm2 (a : tan6) : R := norm2 (trot a) + norm2 (ttrans a).
(** isApprox of Eigen::Matrix3d (so3.cc:137), of Eigen::Vector3d (se3.cc:213) and of
    SE3::TangentVector (two_jet.cc:102). *)
Definition mat_is_approx (a b : mat3) : bool := fuzzy (mnorm2 (madd a (mscale (-1) b))) (mnorm2 a) (mnorm2 b).
Definition vec_is_approx (a b : vec3) : bool := fuzzy (norm2 (vsub a b)) (norm2 a) (norm2 b).
Definition tan_is_approx (a b : tan6) : bool := fuzzy (tnorm2 (tadd a (tscale (-1) b))) (tnorm2 a) (tnorm2 b).

(** SO3::is_approx_transform and is_approx: resim/transforms/so3.cc:131-138. *)
Definition so3_is_approx_transform (a b : so3) : bool := mat_is_approx (rotation_matrix a) (rotation_matrix b).
Definition so3_is_approx (a b : so3) : bool :=
  so3_is_approx_transform a b && so3_verify_frames a (so3_into b) (so3_from b).
(** SE3::is_approx_transform and is_approx: resim/transforms/se3.cc:206-214. *)
Definition se3_is_approx_transform (a b : se3) : bool :=
  so3_is_approx (rotation a) (rotation b) && vec_is_approx (translation a) (translation b).
Definition se3_is_approx (a b : se3) : bool :=
  se3_is_approx_transform a b && se3_verify_frames a (se3_into b) (se3_from b).

(** TwoJetL::is_approx: resim/curves/two_jet.cc:98-104, for its two instances.  [g] and [t]
    compare groups and tangent vectors. *)
Definition jl_is_approx {G T} (g : G -> G -> bool) (t : T -> T -> bool) (a b : jet_l G T) : bool :=
  g (frame_from_ref a) (frame_from_ref b) && t (d_frame_from_ref a) (d_frame_from_ref b)
  && t (d2_frame_from_ref a) (d2_frame_from_ref b).
(** TwoJetR::is_approx: two_jet.cc:195-201. *)
Definition jr_is_approx {G T} (g : G -> G -> bool) (t : T -> T -> bool) (a b : jet_r G T) : bool :=
  g (ref_from_frame a) (ref_from_frame b) && t (d_ref_from_frame a) (d_ref_from_frame b)
  && t (d2_ref_from_frame a) (d2_ref_from_frame b).
(** The instances: two_jet.cc:106-107, 203-204. *)
Definition jl_is_approx_so3 : jet_l so3 vec3 -> jet_l so3 vec3 -> bool := jl_is_approx so3_is_approx vec_is_approx.
Definition jl_is_approx_se3 : jet_l se3 tan6 -> jet_l se3 tan6 -> bool := jl_is_approx se3_is_approx tan_is_approx.
Definition jr_is_approx_so3 : jet_r so3 vec3 -> jet_r so3 vec3 -> bool := jr_is_approx so3_is_approx vec_is_approx.
Definition jr_is_approx_se3 : jet_r se3 tan6 -> jet_r se3 tan6 -> bool := jr_is_approx se3_is_approx tan_is_approx.
