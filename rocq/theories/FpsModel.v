(** Model of two-jets of SE3 and of a segment of TCurve<SE3> in double precision:
    resim/curves/two_jet.cc, t_curve_segment.cc and resim/transforms/se3.cc.  Frames are left
    out; C29 and C33 cover them. *)
From Flocq Require Import Core BinarySingleNaN.
From Verif Require Import Cpp FloatModel QfModel DriftModel SpinModel TwistModel TlogModel SlogModel FtsModel.

(** SE3::TangentVector, the rotation part before the translation part: se3.cc:240-247. *)
Record ftan := FT { frot_part : fvec; ftrans_part : fvec }.
(** Sum of tangent vectors, and a number times one (two_jet.cc:65-73, t_curve_segment.cc:125-128). *)
Definition ftadd (a b : ftan) : ftan := FT (fvadd (frot_part a) (frot_part b)) (fvadd (ftrans_part a) (ftrans_part b)).
Definition ftscale (k : f64) (v : ftan) : ftan := FT (fscale k (frot_part v)) (fscale k (ftrans_part v)).
(** TangentVector::Zero() (two_jet.cc:47-48). *)
Definition ftzero : ftan := FT fvzero fvzero.

(** SE3::adjoint_times(alg): se3.cc:183-191. *)
Definition fadjoint_times (g : fpose) (alg result : ftan) : Prop :=
  exists rotated_alg w, fmvec (frot g) (frot_part alg) rotated_alg /\ fmvec (frot g) (ftrans_part alg) w /\
    result = FT rotated_alg (fvadd (fcross (ftrans g) rotated_alg) w).
(** SE3::adjoint_times(alg_0, alg_1): se3.cc:193-204. *)
Definition flie_bracket (a b : ftan) : ftan :=
  FT (fcross (frot_part a) (frot_part b)) (fvadd (fcross (ftrans_part a) (frot_part b)) (fcross (frot_part a) (ftrans_part b))).

(** TwoJetL<SE3>: two_jet.hh:59-112. *)
Record fpjet := FPJ { pf : fpose; pd : ftan; pd2 : ftan }.
(** SE3::identity and TwoJetL::identity: se3.cc:53-59, two_jet.cc:43-49. *)
Definition fpjet_identity : fpjet := FPJ (FP fmid fvzero) ftzero ftzero.
(** TwoJetL::operator*: two_jet.cc:63-74. *)
Definition fpjet_mul (a b c : fpjet) : Prop :=
  fpose_mul (pf a) (pf b) (pf c) /\
  (exists w, fadjoint_times (pf a) (pd b) w /\ pd c = ftadd (pd a) w) /\
  (exists w2 w, fadjoint_times (pf a) (pd2 b) w2 /\ fadjoint_times (pf a) (pd b) w /\
     pd2 c = ftadd (ftadd (pd2 a) w2) (flie_bracket (pd a) w)).
(** point_value_accumulator: t_curve_segment.cc:119-131. *)
Definition fpaccumulate (coeffs : f_poly_coeffs) (vec : ftan) (point result : fpjet) : Prop :=
  exists g, fse3_exp (fscale (f_a coeffs) (frot_part vec)) (fscale (f_a coeffs) (ftrans_part vec)) g /\
    fpjet_mul (FPJ g (ftscale (f_da coeffs) vec) (ftscale (f_d2a coeffs) vec)) point result.
(** TCurveSegment::point_at: t_curve_segment.cc:41-92. *)
Definition fpsegment_point_at (orig dest : fpjet) (time_nrm : f64) (point : fpjet) : Prop :=
  exists inverse dest_from_orig w v p1 p2 p3 p4 p5,
    fpose_inverse (pf orig) inverse /\ fpose_mul (pf dest) inverse dest_from_orig /\ fse3_log dest_from_orig w v /\
    fpaccumulate (f_dest_from_orig time_nrm) (FT w v) fpjet_identity p1 /\
    fpaccumulate (f_d_orig time_nrm) (pd orig) p1 p2 /\
    fpaccumulate (f_d_dest time_nrm) (pd dest) p2 p3 /\
    fpaccumulate (f_d2_orig time_nrm) (pd2 orig) p3 p4 /\
    fpaccumulate (f_d2_dest time_nrm) (pd2 dest) p4 p5 /\
    fpose_mul (pf p5) (pf orig) (pf point) /\ pd point = pd p5 /\ pd2 point = pd2 p5.
