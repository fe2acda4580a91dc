(** Specification vocabulary for the example programs. *)
From Verif Require Import Cpp UuidModel RotSpec GeomModel RotProofs FrameSpec LieSpec JetModel CurveModel CurveSpec DCurveSpec.
Local Open Scope R_scope.

(** The rotation that turns by [a] from the x axis towards the y axis. *)
Definition yaw (a : R) : mat3 := M3 (cos a) (- sin a) 0 (sin a) (cos a) 0 0 0 1.
(** The pose [g], in the given frames, has the orientation [m] exactly and the position [p]
    up to [eps]. *)
Definition posed (eps : R) (m : mat3) (p : vec3) (into from : frame) (g : se3) : Prop :=
  rotation_matrix (rotation g) = m /\ norm (vsub (position g) p) <= eps /\ se3_into g = into /\ se3_from g = from.
(** Both programs give a rotation, and it is the same. *)
Definition same_rotation (a b : outcome so3) : Prop := exists g h, a = Ok g /\ b = Ok h /\ rotation_matrix g = rotation_matrix h.
