(** Model of two-jets of SO3 and of a segment of TCurve<SO3> in double precision:
    resim/curves/two_jet.cc and t_curve_segment.cc.  Frames are left out; C29 and C33 cover
    them. *)
From Flocq Require Import Core BinarySingleNaN.
From Verif Require Import Cpp FloatModel QfModel DriftModel SpinModel TwistModel TlogModel.

(** TwoJetL<SO3>: two_jet.hh:59-112. *)
Record fjet := FJ { jf : fmat; jd : fvec; jd2 : fvec }.
(** A number times a vector (t_curve_segment.cc:125-128). *)
Definition fscale (k : f64) (v : fvec) : fvec := FV (fmul k (fx v)) (fmul k (fy v)) (fmul k (fz v)).
(** TangentVector::Zero() (two_jet.cc:47-48). *)
Definition fvzero : fvec := FV (of_int 0) (of_int 0) (of_int 0).
(** TwoJetL::identity: two_jet.cc:43-49. *)
Definition fjet_identity : fjet := FJ fmid fvzero fvzero.
(** TwoJetL::operator*: two_jet.cc:63-74, with SO3::adjoint_times (so3.cc:121-129).  The
    product of the rotation and the other velocity is computed twice there. *)
Definition fjet_mul (a b c : fjet) : Prop :=
  fmmul (jf a) (jf b) (jf c) /\
  (exists w, fmvec (jf a) (jd b) w /\ jd c = fvadd (jd a) w) /\
  (exists w2 w, fmvec (jf a) (jd2 b) w2 /\ fmvec (jf a) (jd b) w /\
     jd2 c = fvadd (fvadd (jd2 a) w2) (fcross (jd a) w)).
(** point_value_accumulator: t_curve_segment.cc:119-131. *)
Definition faccumulate (coeffs : f_poly_coeffs) (vec : fvec) (point result : fjet) : Prop :=
  exists m, fso3_exp (fscale (f_a coeffs) vec) m /\
    fjet_mul (FJ m (fscale (f_da coeffs) vec) (fscale (f_d2a coeffs) vec)) point result.
(** TCurveSegment::point_at: t_curve_segment.cc:41-92. *)
Definition fsegment_point_at (orig dest : fjet) (time_nrm : f64) (point : fjet) : Prop :=
  exists dest_from_orig alg p1 p2 p3 p4 p5,
    fmmul (jf dest) (fmtrans (jf orig)) dest_from_orig /\ fso3_log dest_from_orig alg /\
    faccumulate (f_dest_from_orig time_nrm) alg fjet_identity p1 /\
    faccumulate (f_d_orig time_nrm) (jd orig) p1 p2 /\
    faccumulate (f_d_dest time_nrm) (jd dest) p2 p3 /\
    faccumulate (f_d2_orig time_nrm) (jd2 orig) p3 p4 /\
    faccumulate (f_d2_dest time_nrm) (jd2 dest) p4 p5 /\
    fmmul (jf p5) (jf orig) (jf point) /\ jd point = jd p5 /\ jd2 point = jd2 p5.
