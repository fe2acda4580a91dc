(** Model of reading rotations back in double precision: SO3::quaternion, SO3::log and
    SO3::interp (resim/transforms/so3.cc).  Frames are left out; C14-C16 cover them. *)
From Coq Require Import Reals.
From Flocq Require Import Core BinarySingleNaN.
From Verif Require Import Cpp FloatModel DriftModel SpinModel.
From Verif Require GeomModel Vec.

(** The constants 0.5 and epsilon of Eigen 3.4.0's Quaternion.h and AngleAxis.h
    (so3.cc:110, 143; the version is in WORKSPACE:15-19). *)
Definition fhalf : f64 := fdivide (of_int 1) (of_int 2).
Definition fepsilon : f64 := fdivide (of_int 1) (of_int (2 ^ 52)).

(** What the quaternion's constructor does once it has chosen the entry [a] to find first:
    [t] is four times its square, and [x], [y], [z] are four times its products with the
    others (so3.cc:110, 143, through Quaternion.h). *)
Definition fpivot (t x y z : f64) : f64 * f64 * f64 * f64 :=
  let t := fsqrt t in
  let s := fdivide fhalf t in
  (fmul fhalf t, fmul x s, fmul y s, fmul z s).
(** Eigen::Quaterniond of a matrix (so3.cc:110, 143).  The order of the sum in the trace is
    left open as in [fsum3]; the others are as written there. *)
Definition fmatrix_quat (m : fmat) (q : fquat) : Prop :=
  exists t, fsum3 (f00 m) (f11 m) (f22 m) t /\
  q = if flt (of_int 0) t then
        let '(w, x, y, z) := fpivot (fadd t (of_int 1)) (fsub (f21 m) (f12 m)) (fsub (f02 m) (f20 m)) (fsub (f10 m) (f01 m)) in
        FQ w x y z
      else
        let i1 := flt (f00 m) (f11 m) in
        if flt (if i1 then f11 m else f00 m) (f22 m) then
          let '(z, w, x, y) := fpivot (fadd (fsub (fsub (f22 m) (f00 m)) (f11 m)) (of_int 1)) (fsub (f10 m) (f01 m)) (fadd (f02 m) (f20 m)) (fadd (f12 m) (f21 m)) in
          FQ w x y z
        else if i1 then
          let '(y, w, z, x) := fpivot (fadd (fsub (fsub (f11 m) (f22 m)) (f00 m)) (of_int 1)) (fsub (f02 m) (f20 m)) (fadd (f21 m) (f12 m)) (fadd (f01 m) (f10 m)) in
          FQ w x y z
        else
          let '(x, w, y, z) := fpivot (fadd (fsub (fsub (f00 m) (f11 m)) (f22 m)) (of_int 1)) (fsub (f21 m) (f12 m)) (fadd (f10 m) (f01 m)) (fadd (f20 m) (f02 m)) in
          FQ w x y z.

(** Eigen's vec of a quaternion (so3.cc:110). *)
Definition fquat_vec (q : fquat) : fvec := FV (qfx q) (qfy q) (qfz q).
(** Eigen's stableNorm (so3.cc:110, through AngleAxis.h).  Simplification: it rescales before
    it squares; any finite result between half the length and twice the length is allowed. *)
Definition fstable_norm (v : fvec) (n : f64) : Prop :=
  (is_finite (fx v) && is_finite (fy v) && is_finite (fz v))%bool = true ->
  let l := Vec.norm (Vec.V3 (B2R (fx v)) (B2R (fy v)) (B2R (fz v))) in
  is_finite n = true /\ (l / 2 <= B2R n <= 2 * l)%R.
(** std::atan2 (so3.cc:110, through AngleAxis.h), to less than one unit in the last place
    (glibc manual, "Known Maximum Errors"); nothing is said of arguments that are not
    finite. *)
Definition fatan2 (y x r : f64) : Prop :=
  (is_finite y && is_finite x)%bool = true ->
  let a := GeomModel.atan2 (B2R y) (B2R x) in
  is_finite r = true /\ (Rabs (B2R r - a) < ulp radix2 (FLT_exp (-1074) 53) a)%R.

(** The angle and the axis of an Eigen::AngleAxisd made from a quaternion (so3.cc:110). *)
Definition fquat_angle_axis (q : fquat) (angle : f64) (axis : fvec) : Prop :=
  exists n0 n, fnorm (fquat_vec q) n0 /\
    (if flt n0 fepsilon then fstable_norm (fquat_vec q) n else n = n0) /\
    if feq n (of_int 0) then angle = of_int 0 /\ axis = FV (of_int 1) (of_int 0) (of_int 0)
    else exists a, fatan2 n (fabs (qfw q)) a /\ angle = fmul (of_int 2) a /\
      let n := if flt (qfw q) (of_int 0) then fneg n else n in
      axis = FV (fdivide (qfx q) n) (fdivide (qfy q) n) (fdivide (qfz q) n).
(** SO3::log: so3.cc:109-113. *)
Definition fso3_log (m : fmat) (v : fvec) : Prop :=
  exists q angle axis, fmatrix_quat m q /\ fquat_angle_axis q angle axis /\
    v = FV (fmul (fx axis) angle) (fmul (fy axis) angle) (fmul (fz axis) angle).
(** SO3::interp: so3.cc:83-93. *)
Definition fso3_interp (m : fmat) (fraction : f64) (p : fmat) : Prop :=
  exists v, fso3_log m v /\ fso3_exp (FV (fmul (fx v) fraction) (fmul (fy v) fraction) (fmul (fz v) fraction)) p.
