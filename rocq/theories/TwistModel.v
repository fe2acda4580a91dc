(** Model of SE3::exp and SO3::exp_diff in double precision: resim/transforms/se3.cc,
    so3.cc and liegroup_exp_diff.cc.  Frames are left out; C14-C16 cover them. *)
From Coq Require Import Reals.
From Flocq Require Import Core BinarySingleNaN.
From Verif Require Import Cpp FloatModel DriftModel SpinModel.

(** A quotient of literals, like 1. / 24, and the literal 4e-6 (liegroup_exp_diff.cc:19-29,
    liegroup_exp_diff.hh:11): correctly rounded. *)
Definition fratio (p q : Z) : f64 := fdivide (of_int p) (of_int q).
Definition FTINY_SQUARE_ANGLE : f64 := fratio 4 1000000.
(** tiny_exp_diff_coeff: liegroup_exp_diff.cc:38-43. *)
Definition ftiny_coeff (square_angle a b c : f64) : f64 :=
  fsub a (fmul square_angle (fsub b (fmul square_angle c))).
(** derivative_of_exp_so3: liegroup_exp_diff.cc:35-56; sine and cosine as in [library]. *)
Definition fexp_diff_coeffs (square_angle a b c : f64) : Prop :=
  if flt square_angle FTINY_SQUARE_ANGLE then
    b = ftiny_coeff square_angle (fratio 1 2) (fratio 1 24) (fratio 1 720) /\
    c = ftiny_coeff square_angle (fratio 1 6) (fratio 1 120) (fratio 1 5040) /\
    a = fsub (of_int 1) (fmul square_angle c)
  else
    exists s k, library sin (fsqrt square_angle) s /\ library cos (fsqrt square_angle) k /\
      let inv_angle := fdivide (of_int 1) (fsqrt square_angle) in
      let inv_square_angle := fmul inv_angle inv_angle in
      a = fmul s inv_angle /\
      b = fmul (fsub (of_int 1) k) inv_square_angle /\
      c = fmul (fsub (of_int 1) a) inv_square_angle.

(** Eigen's cross (se3.cc:124). *)
Definition fcross (v w : fvec) : fvec :=
  FV (fsub (fmul (fy v) (fz w)) (fmul (fz v) (fy w)))
     (fsub (fmul (fz v) (fx w)) (fmul (fx v) (fz w)))
     (fsub (fmul (fx v) (fy w)) (fmul (fy v) (fx w))).
(** coeffs.a * alg_trans + coeffs.b * cross + coeffs.c * dot * alg_rot (se3.cc:123-125), entry
    by entry and from the left. *)
Definition ftwist (a b c : f64) (w t : fvec) (x : fvec) : Prop :=
  exists d, fdot (fx w) (fy w) (fz w) (fx t) (fy t) (fz t) d /\
    let n := fcross w t in
    let entry (ti ni wi : f64) := fadd (fadd (fmul a ti) (fmul b ni)) (fmul (fmul c d) wi) in
    x = FV (entry (fx t) (fx n) (fx w)) (entry (fy t) (fy n) (fy w)) (entry (fz t) (fz n) (fz w)).
(** SE3::exp: se3.cc:117-127. *)
Definition fse3_exp (alg_rot alg_trans : fvec) (g : fpose) : Prop :=
  fso3_exp alg_rot (frot g) /\
  exists z a b c, fsquared_norm alg_rot z /\ fexp_diff_coeffs z a b c /\ ftwist a b c alg_rot alg_trans (ftrans g).

(** SO3::exp_diff: so3.cc:103-108, with cross_matrix (cross_matrix.cc:11-19). *)
Definition fso3_exp_diff (alg : fvec) (m : fmat) : Prop :=
  exists z a b c, fsquared_norm alg z /\ fexp_diff_coeffs z a b c /\
    let o := of_int 0 in let i := of_int 1 in
    let entry (ij xij vi vj : f64) := fadd (fadd (fmul a ij) (fmul b xij)) (fmul (fmul c vi) vj) in
    let x := fx alg in let y := fy alg in let z := fz alg in
    m = FM (entry i o x x) (entry o (fneg z) x y) (entry o y x z)
           (entry o z y x) (entry i o y y) (entry o (fneg x) y z)
           (entry o (fneg y) z x) (entry o x z y) (entry i o z z).
