(** Specification vocabulary for the examples of the robot and of the drone. *)
From Verif Require Import Cpp UuidModel RotSpec GeomModel StateModel ExamSpec.
Local Open Scope R_scope.

(** The trajectory passes the position [p] at time [x]; there its velocity and its angular
    velocity are [v] and [w] in the coordinates of the reference frame, it is not
    accelerated, and the z axis of the body points along [up]. *)
Definition passes (t : traj) (x : Z) (p v w up : vec3) : Prop :=
  exists s, tr_point_at t x = Ok s /\ translation (ref_from_body s) = p /\
    se3_rotate (ref_from_body s) (linear_velocity s) = v /\ se3_rotate (ref_from_body s) (angular_velocity s) = w /\
    linear_acceleration s = vzero /\ angular_acceleration s = vzero /\ se3_rotate (ref_from_body s) (V3 0 0 1) = up.
(** The point [q] in body coordinates, moved along by the body, is at rest. *)
Definition at_rest (s : rigid_state) (q : vec3) : Prop := vadd (linear_velocity s) (cross (angular_velocity s) q) = vzero.
(** The body is turning about an axis at the distance [r]. *)
Definition turning_radius (s : rigid_state) (r : R) : Prop :=
  (exists q, at_rest s q /\ norm q = r) /\ forall q, at_rest s q -> r <= norm q.
