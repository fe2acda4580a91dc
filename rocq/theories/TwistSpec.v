(** What SE3::exp and SO3::exp_diff in double precision are measured against. *)
From Coq Require Import Reals.
From Flocq Require Import Core BinarySingleNaN.
From Verif Require Import Cpp FloatModel FloatSpec NrmSpec Vec RotSpec ScrewSpec DriftModel DriftSpec SpinModel SpinSpec TwistModel.
Local Open Scope R_scope.

(** The matrix that takes a velocity to where the screw motion with the angular velocity [w]
    leads in unit time. *)
Definition screw_matrix (w : vec3) : mat3 :=
  let a := screw w (V3 1 0 0) 1 in let b := screw w (V3 0 1 0) 1 in let c := screw w (V3 0 0 1) 1 in
  M3 (vx a) (vx b) (vx c) (vy a) (vy b) (vy c) (vz a) (vz b) (vz c).

(** A pose made by SE3::exp from a twist that turns by at most [l], and what it stands for. *)
Definition pose_made_by_exp (l : R) (g : given) : Prop :=
  exists w t, vfinite w /\ vfinite t /\ norm (vval w) <= l /\ norm (vval t) <= g_length g /\ / 2 ^ 900 <= g_length g <= 2 ^ 500 /\
    rotation_by (vval w) (g_rotation g) /\ g_translation g = screw (vval w) (vval t) 1 /\ fse3_exp w t (g_pose g).
