(** Model of SE3::log, SE3::arc_length and SE3::interp in double precision:
    resim/transforms/se3.cc.  Frames are left out; C14-C16 cover them. *)
From Coq Require Import Reals.
From Flocq Require Import Core BinarySingleNaN.
From Verif Require Import Cpp FloatModel DriftModel SpinModel TwistModel TlogModel.

(** order_2_coeff: se3.cc:132-151, with the sum written at 146. *)
Definition flog_coeff (square_angle a b c : f64) : f64 :=
  if flt square_angle FTINY_SQUARE_ANGLE then
    fadd (fratio 1 12) (fmul square_angle (fadd (fadd (fratio 1 720) square_angle) (fratio 1 30240)))
  else if flt (of_int 9) square_angle then
    fdivide (fsub b (fmul fhalf a)) (fmul b square_angle)
  else fdivide (fsub (fmul b fhalf) c) a.
(** alg_trans: se3.cc:152-156, entry by entry and from the left. *)
Definition funtwist (k : f64) (w t : fvec) : fvec :=
  let n := fcross w t in
  let m := fcross w n in
  let entry (ti ni mi : f64) := fadd (fsub ti (fmul fhalf ni)) (fmul k mi) in
  FV (entry (fx t) (fx n) (fx m)) (entry (fy t) (fy n) (fy m)) (entry (fz t) (fz n) (fz m)).
(** SE3::log: se3.cc:129-158; its rotation part and its translation part. *)
Definition fse3_log (g : fpose) (alg_rot alg_trans : fvec) : Prop :=
  fso3_log (frot g) alg_rot /\
  exists z a b c, fsquared_norm alg_rot z /\ fexp_diff_coeffs z a b c /\
    alg_trans = funtwist (flog_coeff z a b c) alg_rot (ftrans g).
(** SE3::arc_length: se3.cc:102-104. *)
Definition fse3_arc_length (g : fpose) (l : f64) : Prop :=
  exists w v, fse3_log g w v /\ fnorm v l.
(** SE3::interp: se3.cc:106-116. *)
Definition fse3_interp (g : fpose) (fraction : f64) (p : fpose) : Prop :=
  exists w v, fse3_log g w v /\
    fse3_exp (FV (fmul (fx w) fraction) (fmul (fy w) fraction) (fmul (fz w) fraction))
             (FV (fmul (fx v) fraction) (fmul (fy v) fraction) (fmul (fz v) fraction)) p.
