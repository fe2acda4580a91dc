(** Specification vocabulary for SO3 and SE3 as groups. *)
From Verif Require Import Cpp UuidModel RotSpec GeomModel FrameSpec.
Local Open Scope R_scope.

(** Well-formed values: a genuine rotation, with frames as the API leaves them. *)
Definition so3_wf (g : so3) : Prop := is_rotation (rotation_matrix g) /\ so3_framing g.
Definition se3_wf (g : se3) : Prop := is_rotation (rotation_matrix (rotation g)) /\ se3_framing g.
Definition obj_wf (o : obj) : Prop := match o with OSO3 g => so3_wf g | OSE3 g => se3_wf g end.

(** Calls whose numerical arguments are what the API asks for: rotation matrices,
    unit axes and unit quaternions. *)
Definition call_sane (c : call) : Prop :=
  match c with
  | SO3Matrix m _ => is_rotation m
  | SO3AngleAxis _ u _ => norm2 u = 1
  | SO3Quat q _ => qw q * qw q + qx q * qx q + qy q * qy q + qz q * qz q = 1
  | _ => True
  end.

(** The identity with given frames. *)
Definition so3_id (i f : frame) : so3 := SO3 mid i f.
Definition se3_id (i f : frame) : se3 := SE3 (SO3 mid null_frame null_frame) vzero i f.

(** Squared rotation angles at which exp and log of SE3 do not use the truncated
    series (or use it at zero, where it is exact). *)
Definition plain_angle (angle2 : R) : Prop := angle2 = 0 \/ TINY_SQUARE_ANGLE <= angle2.

(** se(3) as 4x4 matrices [[W, v], [0, 0]], given by their upper blocks; product and
    difference of such matrices. *)
Definition hat6 (a : tan6) : mat3 * vec3 := (cross_matrix (trot a), ttrans a).
Definition hat_mul (a b : mat3 * vec3) : mat3 * vec3 := (mmul (fst a) (fst b), mvec (fst a) (snd b)).
Definition hat_sub (a b : mat3 * vec3) : mat3 * vec3 :=
  (madd (fst a) (mscale (-1) (fst b)), vsub (snd a) (snd b)).
