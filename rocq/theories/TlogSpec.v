(** What reading rotations back in double precision is measured against. *)
From Flocq Require Import Core BinarySingleNaN.
From Verif Require Import Cpp FloatModel FloatSpec NrmSpec Vec RotSpec DriftModel DriftSpec SpinModel SpinSpec.
Local Open Scope R_scope.

(** A stored quaternion within [e] of a unit quaternion of the rotation [r]. *)
Definition stands_for_quaternion (e : R) (q : fquat) (r : mat3) : Prop :=
  qfinite q /\ exists w p, w * w + dot p p = 1 /\ quaternion_matrix w p = r /\ qoff q w p <= e.
(** The exact rotation of [v] is within [e] of [r]. *)
Definition turns_within (e : R) (v : vec3) (r : mat3) : Prop :=
  exists r', rotation_by v r' /\ apart r' r <= e.
