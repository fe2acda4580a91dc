(** Specification vocabulary for distance curves whose poses lie on one screw motion, are
    seen from another reference frame, or carry a sensor. *)
From Verif Require Import Cpp UuidModel RotSpec GeomModel RotProofs FrameSpec ScrewSpec LieSpec JetModel CurveModel CurveSpec DCurveSpec.
Local Open Scope R_scope.

(** The pose [g] has the orientation and the position that a body has at the time [x] when
    it starts with the orientation [m] at the point [p] and keeps the angular velocity [w]
    and the velocity [v], both as seen from the body. *)
Definition on_screw (m : mat3) (p w v : vec3) (x : R) (g : se3) : Prop :=
  rotation_matrix (rotation g) = mmul m (mexp (vscale x w)) /\ position g = vadd (mvec m (screw w v x)) p.
(** The same with an error of at most [eps] in the position. *)
Definition near_screw (eps : R) (m : mat3) (p w v : vec3) (x : R) (g : se3) : Prop :=
  rotation_matrix (rotation g) = mmul m (mexp (vscale x w)) /\
  norm (vsub (position g) (vadd (mvec m (screw w v x)) p)) <= eps.
(** Steps in time that log undoes: forward, less than half a turn and not a tiny turn. *)
Definition good_step (w : vec3) (x y : R) : Prop :=
  x < y /\ (y - x) * norm w < PI /\ plain_angle ((y - x) * (y - x) * norm2 w).
(** Up to an error in the position the same pose. *)
Definition same_pose_within (eps : R) (g h : se3) : Prop :=
  rotation_matrix (rotation g) = rotation_matrix (rotation h) /\ se3_into g = se3_into h /\ se3_from g = se3_from h /\
  norm (vsub (position g) (position h)) <= eps.
(** The velocity of the point [t] of a body with angular velocity [w] and velocity [v]. *)
Definition point_velocity (w v t : vec3) : vec3 := vadd v (cross w t).
