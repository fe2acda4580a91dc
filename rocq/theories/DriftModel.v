(** Model of composing, inverting and applying SO3 and SE3 in double precision:
    resim/transforms/so3.cc and se3.cc.  Frames are left out; C14-C16 cover them. *)
From Flocq Require Import Core BinarySingleNaN.
From Verif Require Import Cpp FloatModel.

(** Eigen::Vector3d and Eigen::Matrix3d, entry (row, column) (so3.hh:77, 145). *)
Record fvec := FV { fx : f64; fy : f64; fz : f64 }.
Record fmat := FM {
  f00 : f64; f01 : f64; f02 : f64;
  f10 : f64; f11 : f64; f12 : f64;
  f20 : f64; f21 : f64; f22 : f64 }.

(** Unary minus of doubles (se3.cc:97). *)
Definition fneg : f64 -> f64 := @Bopp 53 1024.
(** The sum of three products in a coefficient of a product of Eigen matrices (so3.cc:52, 61).
    Eigen adds from the left where it uses vector instructions and from the right where it
    does not, which differs between the rows of a matrix; both are allowed everywhere. *)
Inductive fsum3 (a b c : f64) : f64 -> Prop :=
| sum_left : fsum3 a b c (fadd (fadd a b) c)
| sum_right : fsum3 a b c (fadd a (fadd b c)).
Definition fdot (a0 a1 a2 b0 b1 b2 : f64) : f64 -> Prop := fsum3 (fmul a0 b0) (fmul a1 b1) (fmul a2 b2).
(** rotation_matrix_ * other.rotation_matrix_ (so3.cc:52, 57). *)
Definition fmmul (a b c : fmat) : Prop :=
  fdot (f00 a) (f01 a) (f02 a) (f00 b) (f10 b) (f20 b) (f00 c) /\
  fdot (f00 a) (f01 a) (f02 a) (f01 b) (f11 b) (f21 b) (f01 c) /\
  fdot (f00 a) (f01 a) (f02 a) (f02 b) (f12 b) (f22 b) (f02 c) /\
  fdot (f10 a) (f11 a) (f12 a) (f00 b) (f10 b) (f20 b) (f10 c) /\
  fdot (f10 a) (f11 a) (f12 a) (f01 b) (f11 b) (f21 b) (f11 c) /\
  fdot (f10 a) (f11 a) (f12 a) (f02 b) (f12 b) (f22 b) (f12 c) /\
  fdot (f20 a) (f21 a) (f22 a) (f00 b) (f10 b) (f20 b) (f20 c) /\
  fdot (f20 a) (f21 a) (f22 a) (f01 b) (f11 b) (f21 b) (f21 c) /\
  fdot (f20 a) (f21 a) (f22 a) (f02 b) (f12 b) (f22 b) (f22 c).
(** rotation_matrix_ * source_vector (so3.cc:61, 65). *)
Definition fmvec (a : fmat) (v w : fvec) : Prop :=
  fdot (f00 a) (f01 a) (f02 a) (fx v) (fy v) (fz v) (fx w) /\
  fdot (f10 a) (f11 a) (f12 a) (fx v) (fy v) (fz v) (fy w) /\
  fdot (f20 a) (f21 a) (f22 a) (fx v) (fy v) (fz v) (fz w).
(** transpose() (so3.cc:81). *)
Definition fmtrans (a : fmat) : fmat :=
  FM (f00 a) (f10 a) (f20 a) (f01 a) (f11 a) (f21 a) (f02 a) (f12 a) (f22 a).
(** Eigen::Matrix3d::Identity() (so3.cc:46). *)
Definition fmid : fmat :=
  let o := of_int 0 in let i := of_int 1 in FM i o o o i o o o i.
(** Vector + and unary - (se3.cc:62, 97). *)
Definition fvadd (v w : fvec) : fvec := FV (fadd (fx v) (fx w)) (fadd (fy v) (fy w)) (fadd (fz v) (fz w)).
Definition fvneg (v : fvec) : fvec := FV (fneg (fx v)) (fneg (fy v)) (fneg (fz v)).

(** The values of an SE3 (se3.hh:167-168). *)
Record fpose := FP { frot : fmat; ftrans : fvec }.
(** SE3::operator*(SE3): se3.cc:60-71. *)
Definition fpose_mul (a b c : fpose) : Prop :=
  fmmul (frot a) (frot b) (frot c) /\
  exists w, fmvec (frot a) (ftrans b) w /\ ftrans c = fvadd w (ftrans a).
(** SE3::operator*(Vector3d): se3.cc:73-75. *)
Definition fpose_act (a : fpose) (v w : fvec) : Prop :=
  exists r, fmvec (frot a) v r /\ w = fvadd r (ftrans a).
(** SE3::inverse: se3.cc:93-100. *)
Definition fpose_inverse (a c : fpose) : Prop :=
  frot c = fmtrans (frot a) /\ fmvec (fmtrans (frot a)) (fvneg (ftrans a)) (ftrans c).

(** What programs build from given rotations, and what the build computes. *)
Inductive rexpr (A : Type) :=
| RGiven (a : A)
| RProduct (x y : rexpr A)
| RInverse (x : rexpr A).
Arguments RGiven {A}. Arguments RProduct {A}. Arguments RInverse {A}.
(** SO3::operator* and SO3::inverse: so3.cc:49-58, 80-82. *)
Inductive rotation_of : rexpr fmat -> fmat -> Prop :=
| rot_given a : rotation_of (RGiven a) a
| rot_product x y a b c : rotation_of x a -> rotation_of y b -> fmmul a b c -> rotation_of (RProduct x y) c
| rot_inverse x a : rotation_of x a -> rotation_of (RInverse x) (fmtrans a).
(** SE3::operator* and SE3::inverse. *)
Inductive pose_of : rexpr fpose -> fpose -> Prop :=
| pose_given a : pose_of (RGiven a) a
| pose_product x y a b c : pose_of x a -> pose_of y b -> fpose_mul a b c -> pose_of (RProduct x y) c
| pose_inverse x a c : pose_of x a -> fpose_inverse a c -> pose_of (RInverse x) c.
