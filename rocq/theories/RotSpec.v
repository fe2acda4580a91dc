(** What it means to be a rotation, independent of how SO3 and SE3 compute. *)
From Verif Require Export Vec.

Definition det (m : mat3) : R :=
  m00 m * (m11 m * m22 m - m12 m * m21 m) - m01 m * (m10 m * m22 m - m12 m * m20 m)
  + m02 m * (m10 m * m21 m - m11 m * m20 m).

(** Orthogonal and orientation preserving. *)
Definition is_rotation (m : mat3) : Prop := mmul (mtrans m) m = mid /\ det m = 1.

(** Rotation of [v] about the unit axis [u] by the angle [t]: the part of [v] along
    the axis stays, the rest turns in the plane orthogonal to it. *)
Definition turned (t : R) (u v : vec3) : vec3 :=
  let along := vscale (dot u v) u in
  let across := vsub v along in
  vadd along (vadd (vscale (cos t) across) (vscale (sin t) (cross u across))).

(** Distance of points. *)
Definition distance (p q : vec3) : R := norm (vsub p q).
