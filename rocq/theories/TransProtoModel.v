(** Model of resim/transforms/proto and resim/math/proto/matrix_to_proto.hh.

    A message is the record of its fields.  A sub-message that is not set reads as its
    default, so a missing UUID reads as the empty string. *)
From Verif Require Import Cpp UuidModel GeomModel.

(** ** Matrices: resim/math/proto/matrix_to_proto.hh *)

(** An Eigen matrix with [rows] rows and [cols] columns; [coeff i j] matters for i < rows
    and j < cols only. *)
Record matrix (A : Type) := Mat { rows : nat; cols : nat; coeff : nat -> nat -> A }.
Arguments Mat {A}.
Arguments rows {A}.
Arguments cols {A}.
Arguments coeff {A}.

(** in.reshaped(): the entries column by column (matrix_to_proto.hh:38-41, 48). *)
Definition reshaped {A} (m : matrix A) : list A :=
  flat_map (fun j => map (fun i => coeff m i j) (seq 0 (rows m))) (seq 0 (cols m)).
(** pack_matrix: matrix_to_proto.hh:42-50. *)
Definition pack_matrix {A} (m : matrix A) : list A := reshaped m.
(** unpack_matrix into [out]: matrix_to_proto.hh:58-67.  std::copy writes the k-th
    element to the k-th place of the column-major view. *)
Definition unpack_matrix {A} (field : list A) (out : matrix A) : outcome (matrix A) :=
  let* _ := reassert (Nat.eqb (length field) (rows out * cols out)) in
  Ok (Mat (rows out) (cols out)
        (fun i j => nth (j * rows out + i) field (coeff out i j))).

(** The fixed-size uses of these: Eigen::Vector3d (framed_vector_3_to_proto.cc:21,
    27-28; SO3::TangentVector) and the 6-vector of SE3 (liegroup_to_proto.cc:24, 31-32).
    The matrix unpacked into is uninitialized in the code; here it is zero. *)
Definition vec3_matrix (v : vec3) : matrix R := Mat 3 1 (fun i _ => nth i [vx v; vy v; vz v] 0%R).
Definition pack_vec3 (v : vec3) : list R := pack_matrix (vec3_matrix v).
Definition unpack_vec3 (field : list R) : outcome vec3 :=
  let* m := unpack_matrix field (vec3_matrix vzero) in
  Ok (V3 (coeff m 0 0) (coeff m 1 0) (coeff m 2 0))%nat.
Definition tan6_matrix (v : tan6) : matrix R :=
  Mat 6 1 (fun i _ => nth i [vx (trot v); vy (trot v); vz (trot v);
                             vx (ttrans v); vy (ttrans v); vz (ttrans v)] 0%R).
Definition pack_tan6 (v : tan6) : list R := pack_matrix (tan6_matrix v).
Definition unpack_tan6 (field : list R) : outcome tan6 :=
  let* m := unpack_matrix field (tan6_matrix tzero) in
  Ok (T6 (V3 (coeff m 0 0) (coeff m 1 0) (coeff m 2 0))
         (V3 (coeff m 3 0) (coeff m 4 0) (coeff m 5 0)))%nat.

(** ** Frames: resim/transforms/proto/frame_3_to_proto.cc:16-24 (the message is its id) *)
Definition pack_frame (f : frame) : text := pack_uuid f.
Definition unpack_frame (msg : text) : outcome frame := unpack_uuid msg.

(** ** FramedVector: resim/transforms/proto/framed_vector_3_to_proto.cc:18-36 *)
Record fv_msg := FVMsg { fv_msg_algebra : list R; fv_msg_frame : text }.
Definition pack_framed_vector (v : framed_vector) : fv_msg :=
  FVMsg (pack_vec3 (fv_vector v)) (pack_frame (fv_frame v)).
Definition unpack_framed_vector (msg : fv_msg) : outcome framed_vector :=
  let* v := unpack_vec3 (fv_msg_algebra msg) in
  let* f := unpack_frame (fv_msg_frame msg) in
  Ok (FV v f).

(** ** SO3 and SE3: resim/transforms/proto/liegroup_to_proto.cc:20-34 *)
Record lie_msg := LieMsg { algebra : list R; msg_into : text; msg_from : text }.
Definition pack_so3 (g : so3) : lie_msg :=
  LieMsg (pack_vec3 (so3_log g)) (pack_frame (so3_into g)) (pack_frame (so3_from g)).
Definition unpack_so3 (msg : lie_msg) : outcome so3 :=
  let* alg := unpack_vec3 (algebra msg) in
  let* i := unpack_frame (msg_into msg) in
  let* f := unpack_frame (msg_from msg) in
  so3_exp alg (Some (i, f)).
Definition pack_se3 (g : se3) : lie_msg :=
  LieMsg (pack_tan6 (se3_log g)) (pack_frame (se3_into g)) (pack_frame (se3_from g)).
Definition unpack_se3 (msg : lie_msg) : outcome se3 :=
  let* alg := unpack_tan6 (algebra msg) in
  let* i := unpack_frame (msg_into msg) in
  let* f := unpack_frame (msg_from msg) in
  se3_exp alg (Some (i, f)).
