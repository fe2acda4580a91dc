(** Model of making rotations in double precision: the constructors of SO3 from an angle and
    an axis and from a quaternion, and SO3::exp (resim/transforms/so3.cc).  Frames are left
    out; C14-C16 cover them. *)
From Coq Require Import Reals.
From Flocq Require Import Core BinarySingleNaN.
From Verif Require Import Cpp FloatModel DriftModel.

(** std::sqrt (so3.cc:99, through Eigen's norm and normalized). *)
Definition fsqrt : f64 -> f64 := @Bsqrt 53 1024 prec_pos prec_emax mode_NE.
(** std::sin and std::cos (so3.cc:28, through AngleAxisd::toRotationMatrix).  The C library
    promises less than one unit in the last place (glibc manual, "Known Maximum Errors"), the
    exact value at zero and NaN where there is no value (C17 F.10.1.6, F.10.1.5).  Any such
    result is allowed. *)
Definition library (f : R -> R) (x y : f64) : Prop :=
  if is_finite x then
    is_finite y = true /\
    (Rabs (B2R y - f (B2R x)) < ulp radix2 (FLT_exp (-1074) 53) (f (B2R x)))%R /\
    (B2R x = 0%R -> B2R y = f 0%R)
  else y = B754_nan.

(** squaredNorm of an Eigen::Vector3d (so3.cc:99); the order of the sum as in [fsum3]. *)
Definition fsquared_norm (v : fvec) : f64 -> Prop := fdot (fx v) (fy v) (fz v) (fx v) (fy v) (fz v).
(** Eigen's norm (so3.cc:99). *)
Definition fnorm (v : fvec) (x : f64) : Prop := exists z, fsquared_norm v z /\ x = fsqrt z.
(** Eigen's normalized (so3.cc:99): a vector whose squared norm is not above zero stays as
    it is. *)
Definition fnormalized (v w : fvec) : Prop :=
  exists z, fsquared_norm v z /\
    w = if flt (of_int 0) z
        then FV (fdivide (fx v) (fsqrt z)) (fdivide (fy v) (fsqrt z)) (fdivide (fz v) (fsqrt z))
        else v.

(** Eigen::AngleAxisd::toRotationMatrix (so3.cc:28). *)
Definition fangle_axis (angle : f64) (axis : fvec) (m : fmat) : Prop :=
  exists s c, library sin angle s /\ library cos angle c /\
    let sx := fmul s (fx axis) in let sy := fmul s (fy axis) in let sz := fmul s (fz axis) in
    let k := fsub (of_int 1) c in
    let kx := fmul k (fx axis) in let ky := fmul k (fy axis) in let kz := fmul k (fz axis) in
    m = FM (fadd (fmul kx (fx axis)) c) (fsub (fmul kx (fy axis)) sz) (fadd (fmul kx (fz axis)) sy)
           (fadd (fmul kx (fy axis)) sz) (fadd (fmul ky (fy axis)) c) (fsub (fmul ky (fz axis)) sx)
           (fsub (fmul kx (fz axis)) sy) (fadd (fmul ky (fz axis)) sx) (fadd (fmul kz (fz axis)) c).
(** SO3::exp: so3.cc:96-101. *)
Definition fso3_exp (alg : fvec) (m : fmat) : Prop :=
  exists angle axis, fnorm alg angle /\ fnormalized alg axis /\ fangle_axis angle axis m.

(** Eigen::Quaterniond and its toRotationMatrix (so3.cc:37). *)
Record fquat := FQ { qfw : f64; qfx : f64; qfy : f64; qfz : f64 }.
Definition fquaternion (q : fquat) : fmat :=
  let two := of_int 2 in let one := of_int 1 in
  let tx := fmul two (qfx q) in let ty := fmul two (qfy q) in let tz := fmul two (qfz q) in
  let twx := fmul tx (qfw q) in let twy := fmul ty (qfw q) in let twz := fmul tz (qfw q) in
  let txx := fmul tx (qfx q) in let txy := fmul ty (qfx q) in let txz := fmul tz (qfx q) in
  let tyy := fmul ty (qfy q) in let tyz := fmul tz (qfy q) in let tzz := fmul tz (qfz q) in
  FM (fsub one (fadd tyy tzz)) (fsub txy twz) (fadd txz twy)
     (fadd txy twz) (fsub one (fadd txx tzz)) (fsub tyz twx)
     (fsub txz twy) (fadd tyz twx) (fsub one (fadd txx tyy)).
