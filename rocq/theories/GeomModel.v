(** Model of resim/transforms: Frame, FramedVector, LieGroup, SO3 and SE3.

    Over the reals: rounding is not modelled here.  Eigen operations are written out
    as Eigen 3.4 defines them. *)
From Verif Require Export Vec.
From Verif Require Import Cpp UuidModel.
Local Open Scope R_scope.

(** ** Frames: resim/transforms/frame.hh *)

(** Frame<3> is its UUID: frame.hh:43. *)
Definition frame := uuid.
(** Frame() and null_frame(): frame.hh:27, 32, 43. *)
Definition null_frame : frame := null_uuid.
(** operator== and is_null: frame.hh:35, 38. *)
Definition frame_eqb (a b : frame) : bool := uuid_eqb a b.
Definition frame_is_null (a : frame) : bool := uuid_is_null a.

(** The frame arguments of constructors and factory functions: [None] when the
    LieGroup default constructor is used, [Some (into, from)] for
    LieGroup(into, from): resim/transforms/liegroup.hh:28, 35-44. *)
Definition frame_args := option (frame * frame).
Definition make_frames (args : frame_args) : outcome (frame * frame) :=
  match args with
  | None => Ok (null_frame, null_frame)
  | Some (into, from) =>
      let* _ := reassert (Bool.eqb (frame_is_null into) (frame_is_null from)) in
      Ok (into, from)
  end.

(** ** FramedVector: resim/transforms/framed_vector.hh *)

(** framed_vector.hh:33, 117. *)
Record framed_vector := FV { fv_vector : vec3; fv_frame : frame }.
(** operator+(FramedVector): framed_vector.hh:59-62. *)
Definition fv_add (a b : framed_vector) : outcome framed_vector :=
  let* _ := reassert (frame_eqb (fv_frame a) (fv_frame b)) in
  Ok (FV (vadd (fv_vector a) (fv_vector b)) (fv_frame a)).
(** operator*(double), on either side: framed_vector.hh:64-70. *)
Definition fv_scale (d : R) (a : framed_vector) : framed_vector :=
  FV (vscale d (fv_vector a)) (fv_frame a).
(** operator+(Vector): framed_vector.hh:75-77. *)
Definition fv_add_vector (a : framed_vector) (b : vec3) : vec3 := vadd (fv_vector a) b.
(** Coefficient-wise equality, Eigen's operator==. *)
Definition Reqb (a b : R) : bool := if Req_EM_T a b then true else false.
Definition vec_eqb (a b : vec3) : bool :=
  Reqb (vx a) (vx b) && Reqb (vy a) (vy b) && Reqb (vz a) (vz b).
(** operator==: framed_vector.hh:83-85. *)
Definition fv_eqb (a b : framed_vector) : bool :=
  vec_eqb (fv_vector a) (fv_vector b) && frame_eqb (fv_frame a) (fv_frame b).
(** set_frame: framed_vector.hh:110. *)
Definition fv_set_frame (a : framed_vector) (f : frame) : framed_vector := FV (fv_vector a) f.

(** isApprox(other): framed_vector.hh:96-108.  [close] is Eigen's comparison of the
    vectors.  Overload resolution picks the first template, which compares frames,
    only if [other] is a const lvalue FramedVector; for a non-const lvalue or an
    rvalue the forwarding template (105-108) is the better match ([over.ics.rank]),
    and frames are not compared. *)
Inductive value_category := ConstLvalue | NonConstLvalue | Rvalue.
Definition fv_is_approx (close : vec3 -> vec3 -> bool) (cat : value_category)
    (a other : framed_vector) : bool :=
  match cat with
  | ConstLvalue => close (fv_vector a) (fv_vector other) && frame_eqb (fv_frame a) (fv_frame other)
  | _ => close (fv_vector a) (fv_vector other)
  end.

(** ** Helpers *)

(** cross_matrix: resim/transforms/cross_matrix.cc:11-20. *)
Definition cross_matrix (v : vec3) : mat3 :=
  M3 0 (- vz v) (vy v)
     (vz v) 0 (- vx v)
     (- vy v) (vx v) 0.

(** ExpDiffCoeffs and derivative_of_exp_so3:
    resim/transforms/liegroup_exp_diff.{hh,cc}:11-56. *)
Definition TINY_SQUARE_ANGLE : R := 4 / 1000000.
Record exp_diff_coeffs := Coeffs { ca : R; cb : R; cc : R }.
Definition tiny_coeff (square_angle a b c : R) : R :=
  a - square_angle * (b - square_angle * c).
Definition derivative_of_exp_so3 (square_angle : R) : exp_diff_coeffs :=
  if Rlt_dec square_angle TINY_SQUARE_ANGLE then
    let b := tiny_coeff square_angle (1 / 2) (1 / 24) (1 / 720) in
    let c := tiny_coeff square_angle (1 / 6) (1 / 120) (1 / 5040) in
    Coeffs (1 - square_angle * c) b c
  else
    let angle := sqrt square_angle in
    let inv_angle := 1 / angle in
    let inv_square_angle := inv_angle * inv_angle in
    let a := sin angle * inv_angle in
    Coeffs a ((1 - cos angle) * inv_square_angle) ((1 - a) * inv_square_angle).

(** Eigen::AngleAxisd::toRotationMatrix (used at so3.cc:28). *)
Definition angle_axis_matrix (angle : R) (axis : vec3) : mat3 :=
  let c := cos angle in
  let s := vscale (sin angle) axis in
  let k := vscale (1 - c) axis in
  M3 (vx k * vx axis + c) (vx k * vy axis - vz s) (vx k * vz axis + vy s)
     (vx k * vy axis + vz s) (vy k * vy axis + c) (vy k * vz axis - vx s)
     (vx k * vz axis - vy s) (vy k * vz axis + vx s) (vz k * vz axis + c).

(** Eigen::Quaterniond, its toRotationMatrix (so3.cc:37) and its construction from a
    rotation matrix (so3.cc:143 and, through AngleAxisd, 110). *)
Record quat := Quat { qw : R; qx : R; qy : R; qz : R }.
Definition quat_matrix (q : quat) : mat3 :=
  let tx := 2 * qx q in let ty := 2 * qy q in let tz := 2 * qz q in
  let twx := tx * qw q in let twy := ty * qw q in let twz := tz * qw q in
  let txx := tx * qx q in let txy := ty * qx q in let txz := tz * qx q in
  let tyy := ty * qy q in let tyz := tz * qy q in let tzz := tz * qz q in
  M3 (1 - (tyy + tzz)) (txy - twz) (txz + twy)
     (txy + twz) (1 - (txx + tzz)) (tyz - twx)
     (txz - twy) (tyz + twx) (1 - (txx + tyy)).
Definition matrix_quat (m : mat3) : quat :=
  let t := m00 m + m11 m + m22 m in
  if Rlt_dec 0 t then
    let t := sqrt (t + 1) in
    let s := (1 / 2) / t in
    Quat (1 / 2 * t) ((m21 m - m12 m) * s) ((m02 m - m20 m) * s) ((m10 m - m01 m) * s)
  else
    (* i is the index of the largest diagonal entry, found as Eigen does *)
    let i1 := if Rlt_dec (m00 m) (m11 m) then true else false in
    let best := if i1 then m11 m else m00 m in
    if Rlt_dec best (m22 m) then
      (* i = 2, j = 0, k = 1 *)
      let t := sqrt (m22 m - m00 m - m11 m + 1) in
      let s := (1 / 2) / t in
      Quat ((m10 m - m01 m) * s) ((m02 m + m20 m) * s) ((m12 m + m21 m) * s) (1 / 2 * t)
    else if i1 then
      (* i = 1, j = 2, k = 0 *)
      let t := sqrt (m11 m - m22 m - m00 m + 1) in
      let s := (1 / 2) / t in
      Quat ((m02 m - m20 m) * s) ((m01 m + m10 m) * s) (1 / 2 * t) ((m21 m + m12 m) * s)
    else
      (* i = 0, j = 1, k = 2 *)
      let t := sqrt (m00 m - m11 m - m22 m + 1) in
      let s := (1 / 2) / t in
      Quat ((m21 m - m12 m) * s) (1 / 2 * t) ((m10 m + m01 m) * s) ((m20 m + m02 m) * s).

(** std::atan2. *)
Definition atan2 (y x : R) : R :=
  if Rlt_dec 0 x then atan (y / x)
  else if Rlt_dec x 0 then (if Rle_dec 0 y then atan (y / x) + PI else atan (y / x) - PI)
  else if Rlt_dec 0 y then PI / 2
  else if Rlt_dec y 0 then - (PI / 2) else 0.

(** Eigen::AngleAxisd from a quaternion: angle and axis (so3.cc:110). *)
Definition quat_vec (q : quat) : vec3 := V3 (qx q) (qy q) (qz q).
Definition quat_angle_axis (q : quat) : R * vec3 :=
  let n := norm (quat_vec q) in
  if Req_EM_T n 0 then (0, V3 1 0 0)
  else
    let angle := 2 * atan2 n (Rabs (qw q)) in
    let n := if Rlt_dec (qw q) 0 then - n else n in
    (angle, vscale (/ n) (quat_vec q)).

(** ** SO3: resim/transforms/so3.{hh,cc} *)

(** so3.hh:145 and liegroup.hh:100-101. *)
Record so3 := SO3 { rotation_matrix : mat3; so3_into : frame; so3_from : frame }.

(** SO3(): so3.hh:39, 145. *)
Definition so3_default : so3 := SO3 mid null_frame null_frame.
(** SO3(rotation_matrix, ...): so3.cc:39-42. *)
Definition so3_of_matrix (m : mat3) (args : frame_args) : outcome so3 :=
  let* (i, f) := make_frames args in Ok (SO3 m i f).
(** SO3(angle_axis, ...) and SO3(angle, axis, ...): so3.cc:25-32. *)
Definition so3_of_angle_axis (angle : R) (axis : vec3) (args : frame_args) : outcome so3 :=
  let* (i, f) := make_frames args in Ok (SO3 (angle_axis_matrix angle axis) i f).
(** SO3(quaternion, ...): so3.cc:34-37. *)
Definition so3_of_quat (q : quat) (args : frame_args) : outcome so3 :=
  let* (i, f) := make_frames args in Ok (SO3 (quat_matrix q) i f).
(** SO3::identity: so3.cc:44-47. *)
Definition so3_identity (args : frame_args) : outcome so3 := so3_of_matrix mid args.

(** LieGroup::is_framed, set_frames, set_unframed: liegroup.hh:57-71, 80. *)
Definition so3_is_framed (g : so3) : bool := negb (frame_is_null (so3_into g)).
Definition so3_set_frames (g : so3) (into from : frame) : outcome so3 :=
  let* _ := reassert (negb (frame_is_null into || frame_is_null from)) in
  Ok (SO3 (rotation_matrix g) into from).
Definition so3_set_unframed (g : so3) : so3 := SO3 (rotation_matrix g) null_frame null_frame.
(** verify_into, verify_from, verify_frames: liegroup.hh:83-97. *)
Definition so3_verify_frames (g : so3) (into from : frame) : bool :=
  frame_eqb (so3_into g) into && frame_eqb (so3_from g) from.

(** SO3::operator*(SO3): so3.cc:49-58. *)
Definition so3_mul (a b : so3) : outcome so3 :=
  let m := mmul (rotation_matrix a) (rotation_matrix b) in
  if negb (so3_is_framed a) || negb (so3_is_framed b) then so3_of_matrix m None
  else
    let* _ := reassert (frame_eqb (so3_from a) (so3_into b)) in
    so3_of_matrix m (Some (so3_into a, so3_from b)).
(** SO3::operator*(Vector3d) and rotate(Vector3d): so3.cc:60-66. *)
Definition so3_act (g : so3) (v : vec3) : vec3 := mvec (rotation_matrix g) v.
(** SO3::rotate(FramedVector): so3.cc:68-77. *)
Definition so3_rotate_framed (g : so3) (v : framed_vector) : outcome framed_vector :=
  let* _ := reassert (so3_is_framed g) in
  let* _ := reassert (frame_eqb (so3_from g) (fv_frame v)) in
  Ok (FV (so3_act g (fv_vector v)) (so3_into g)).
(** SO3::inverse: so3.cc:79-81. *)
Definition so3_inverse (g : so3) : outcome so3 :=
  so3_of_matrix (mtrans (rotation_matrix g)) (Some (so3_from g, so3_into g)).
(** SO3::exp: so3.cc:95-100. *)
Definition so3_exp (alg : vec3) (args : frame_args) : outcome so3 :=
  so3_of_angle_axis (norm alg) (normalized alg) args.
(** SO3::log: so3.cc:109-113. *)
Definition matrix_log (m : mat3) : vec3 :=
  let (angle, axis) := quat_angle_axis (matrix_quat m) in vscale angle axis.
Definition so3_log (g : so3) : vec3 := matrix_log (rotation_matrix g).
(** SO3::interp: so3.cc:83-93. *)
Definition so3_interp (g : so3) (fraction : R) : outcome so3 :=
  so3_exp (vscale fraction (so3_log g)) (Some (so3_into g, so3_from g)).
Definition so3_interp_from (g : so3) (fraction : R) (new_from : frame) : outcome so3 :=
  let* _ := reassert (so3_is_framed g) in
  so3_exp (vscale fraction (so3_log g)) (Some (so3_into g, new_from)).
(** SO3::exp_diff: so3.cc:102-107. *)
Definition so3_exp_diff (alg : vec3) : mat3 :=
  let k := derivative_of_exp_so3 (norm2 alg) in
  madd (madd (mscale (ca k) mid) (mscale (cb k) (cross_matrix alg)))
    (mscale (cc k) (outer alg alg)).
(** SO3::adjoint and adjoint_times: so3.cc:115-129. *)
Definition so3_adjoint (g : so3) : mat3 := rotation_matrix g.
Definition so3_adjoint_alg (alg : vec3) : mat3 := cross_matrix alg.
Definition so3_adjoint_times (g : so3) (alg : vec3) : vec3 := mvec (rotation_matrix g) alg.
Definition so3_adjoint_times_alg (alg0 alg1 : vec3) : vec3 := cross alg0 alg1.
(** SO3::quaternion: so3.cc:142-144. *)
Definition so3_quaternion (g : so3) : quat := matrix_quat (rotation_matrix g).

(** ** SE3: resim/transforms/se3.{hh,cc} *)

(** se3.hh:167-168 and liegroup.hh:100-101. *)
Record se3 := SE3 { rotation : so3; translation : vec3; se3_into : frame; se3_from : frame }.

(** SE3::TangentVector, rotation part first: se3.cc:220-247. *)
Record tan6 := T6 { trot : vec3; ttrans : vec3 }.
Definition tadd (a b : tan6) : tan6 := T6 (vadd (trot a) (trot b)) (vadd (ttrans a) (ttrans b)).
Definition tscale (k : R) (a : tan6) : tan6 := T6 (vscale k (trot a)) (vscale k (ttrans a)).
Definition tzero : tan6 := T6 vzero vzero.

(** SE3(): se3.hh:39, 167-168. *)
Definition se3_default : se3 := SE3 so3_default vzero null_frame null_frame.
(** SE3(rotation, translation, ...): se3.cc:44-51; the rotation's own frames are
    dropped. *)
Definition se3_make (r : so3) (t : vec3) (args : frame_args) : outcome se3 :=
  let* (i, f) := make_frames args in Ok (SE3 (so3_set_unframed r) t i f).
(** SE3(rotation) and SE3(rotation, into, from): se3.cc:23-36. *)
Definition se3_of_rotation (r : so3) (args : frame_args) : outcome se3 :=
  let* (i, f) := make_frames args in Ok (SE3 (so3_set_unframed r) vzero i f).
(** SE3(translation, ...): se3.cc:38-42. *)
Definition se3_of_translation (t : vec3) (args : frame_args) : outcome se3 :=
  let* (i, f) := make_frames args in
  let* r := so3_identity None in
  Ok (SE3 r t i f).
(** SE3::identity: se3.cc:53-59. *)
Definition se3_identity (args : frame_args) : outcome se3 :=
  let* r := so3_identity None in se3_make r vzero args.

(** LieGroup members: liegroup.hh:57-71, 80-97. *)
Definition se3_is_framed (g : se3) : bool := negb (frame_is_null (se3_into g)).
Definition se3_set_frames (g : se3) (into from : frame) : outcome se3 :=
  let* _ := reassert (negb (frame_is_null into || frame_is_null from)) in
  Ok (SE3 (rotation g) (translation g) into from).
Definition se3_set_unframed (g : se3) : se3 :=
  SE3 (rotation g) (translation g) null_frame null_frame.
Definition se3_verify_frames (g : se3) (into from : frame) : bool :=
  frame_eqb (se3_into g) into && frame_eqb (se3_from g) from.

(** SE3::operator*(SE3): se3.cc:61-72. *)
Definition se3_mul (a b : se3) : outcome se3 :=
  let* r := so3_mul (rotation a) (rotation b) in
  let t := vadd (so3_act (rotation a) (translation b)) (translation a) in
  if negb (se3_is_framed a) || negb (se3_is_framed b) then se3_make r t None
  else
    let* _ := reassert (frame_eqb (se3_from a) (se3_into b)) in
    se3_make r t (Some (se3_into a, se3_from b)).
(** SE3::operator*(Vector3d): se3.cc:74-76. *)
Definition se3_act (g : se3) (v : vec3) : vec3 :=
  vadd (so3_act (rotation g) v) (translation g).
(** SE3::rotate(Vector3d) and rotate(FramedVector): se3.cc:78-91. *)
Definition se3_rotate (g : se3) (v : vec3) : vec3 := so3_act (rotation g) v.
Definition se3_rotate_framed (g : se3) (v : framed_vector) : outcome framed_vector :=
  let* _ := reassert (se3_is_framed g) in
  let* _ := reassert (frame_eqb (se3_from g) (fv_frame v)) in
  Ok (FV (se3_rotate g (fv_vector v)) (se3_into g)).
(** SE3::inverse: se3.cc:93-100. *)
Definition se3_inverse (g : se3) : outcome se3 :=
  let* r := so3_inverse (rotation g) in
  se3_make r (so3_act r (vneg (translation g))) (Some (se3_from g, se3_into g)).
(** SE3::exp: se3.cc:118-127. *)
Definition se3_exp (alg : tan6) (args : frame_args) : outcome se3 :=
  let k := derivative_of_exp_so3 (norm2 (trot alg)) in
  let t := vadd (vadd (vscale (ca k) (ttrans alg))
                      (vscale (cb k) (cross (trot alg) (ttrans alg))))
                (vscale (cc k * dot (trot alg) (ttrans alg)) (trot alg)) in
  let* r := so3_exp (trot alg) None in
  se3_make r t args.
(** The coefficient of SE3::log: se3.cc:132-151, with the sum written at 146. *)
Definition log_order_2_coeff (square_angle : R) : R :=
  let k := derivative_of_exp_so3 square_angle in
  if Rlt_dec square_angle TINY_SQUARE_ANGLE then
    1 / 12 + square_angle * (1 / 720 + square_angle + 1 / 30240)
  else if Rlt_dec 9 square_angle then
    (cb k - 1 / 2 * ca k) / (cb k * square_angle)
  else (cb k * (1 / 2) - cc k) / ca k.
(** SE3::log: se3.cc:129-158. *)
Definition se3_log (g : se3) : tan6 :=
  let w := so3_log (rotation g) in
  let k := log_order_2_coeff (norm2 w) in
  let wt := cross w (translation g) in
  T6 w (vadd (vsub (translation g) (vscale (1 / 2) wt)) (vscale k (cross w wt))).
(** SE3::arc_length: se3.cc:102-104. *)
Definition se3_arc_length (g : se3) : R := norm (ttrans (se3_log g)).
(** SE3::interp: se3.cc:106-116. *)
Definition se3_interp (g : se3) (fraction : R) : outcome se3 :=
  se3_exp (tscale fraction (se3_log g)) (Some (se3_into g, se3_from g)).
Definition se3_interp_from (g : se3) (fraction : R) (new_from : frame) : outcome se3 :=
  let* _ := reassert (se3_is_framed g) in
  se3_exp (tscale fraction (se3_log g)) (Some (se3_into g, new_from)).
(** 6x6 matrices by 3x3 blocks, and their product with a tangent vector
    (SE3::TangentMapping). *)
Record mat6 := M6 { b00 : mat3; b01 : mat3; b10 : mat3; b11 : mat3 }.
Definition mzero : mat3 := M3 0 0 0 0 0 0 0 0 0.
Definition mat6_times (m : mat6) (a : tan6) : tan6 :=
  T6 (vadd (mvec (b00 m) (trot a)) (mvec (b01 m) (ttrans a)))
     (vadd (mvec (b10 m) (trot a)) (mvec (b11 m) (ttrans a))).
(** SE3::adjoint: se3.cc:160-168 and 170-181. *)
Definition se3_adjoint (g : se3) : mat6 :=
  let r := so3_adjoint (rotation g) in
  M6 r mzero (mmul (cross_matrix (translation g)) r) r.
Definition se3_adjoint_alg (alg : tan6) : mat6 :=
  M6 (so3_adjoint_alg (trot alg)) mzero (so3_adjoint_alg (ttrans alg)) (so3_adjoint_alg (trot alg)).
(** SE3::adjoint_times: se3.cc:183-191 and 193-204. *)
Definition se3_adjoint_times (g : se3) (alg : tan6) : tan6 :=
  let m := rotation_matrix (rotation g) in
  let r := mvec m (trot alg) in
  T6 r (vadd (cross (translation g) r) (mvec m (ttrans alg))).
Definition se3_adjoint_times_alg (alg0 alg1 : tan6) : tan6 :=
  T6 (cross (trot alg0) (trot alg1))
     (vadd (cross (ttrans alg0) (trot alg1)) (cross (trot alg0) (ttrans alg1))).
(** se3_distance and se3_inverse_distance: se3.cc:267-275. *)
Definition se3_distance (a_from_ref b_from_ref : se3) : outcome R :=
  let* _ := reassert (frame_eqb (se3_from a_from_ref) (se3_from b_from_ref)) in
  Ok (norm (vsub (translation a_from_ref) (translation b_from_ref))).
Definition se3_inverse_distance (ref_from_a ref_from_b : se3) : outcome R :=
  let* _ := reassert (frame_eqb (se3_into ref_from_a) (se3_into ref_from_b)) in
  Ok (norm (vsub (translation ref_from_a) (translation ref_from_b))).
