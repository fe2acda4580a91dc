(** What it means for two-jets to describe the motion of transforms. *)
From Verif Require Import Cpp UuidModel RotSpec GeomModel TransProtoSpec DerivSpec FrameSpec ScrewSpec LieSpec JetModel.
Local Open Scope R_scope.

(** Velocity of a curve of rotations or rigid transforms at a time, in the left tangent
    space (the derivative of the matrix is hat(w) times the matrix) and in the right one
    (the matrix times hat(w)). *)
Definition so3_left_velocity (p : R -> so3) (t : R) (w : vec3) : Prop :=
  dM (fun s => rotation_matrix (p s)) t (mmul (cross_matrix w) (rotation_matrix (p t))).
Definition so3_right_velocity (p : R -> so3) (t : R) (w : vec3) : Prop :=
  dM (fun s => rotation_matrix (p s)) t (mmul (rotation_matrix (p t)) (cross_matrix w)).
Definition se3_left_velocity (p : R -> se3) (t : R) (w : tan6) : Prop :=
  dM (fun s => rotation_matrix (rotation (p s))) t
     (mmul (cross_matrix (trot w)) (rotation_matrix (rotation (p t)))) /\
  dV (fun s => translation (p s)) t (vadd (cross (trot w) (translation (p t))) (ttrans w)).
Definition se3_right_velocity (p : R -> se3) (t : R) (w : tan6) : Prop :=
  dM (fun s => rotation_matrix (rotation (p s))) t
     (mmul (rotation_matrix (rotation (p t))) (cross_matrix (trot w))) /\
  dV (fun s => translation (p s)) t (mvec (rotation_matrix (rotation (p t))) (ttrans w)).

(** Coordinates of tangent vectors. *)
Definition so3_coord (v : vec3) (n : nat) : R := nth n (list3 v) 0.
Definition se3_coord (v : tan6) (n : nat) : R := nth n (list6 v) 0.

(** The calculus of a group. *)
Record lie_calc (G T : Type) := LieCalc {
  well_formed : G -> Prop;
  left_velocity : (R -> G) -> R -> T -> Prop;
  right_velocity : (R -> G) -> R -> T -> Prop;
  coord : T -> nat -> R;
  (** Where the computed exponential is the exact one: on all of SO3; on SE3 the
      truncated series of tiny rotations must stay away from exp(k v). *)
  exact_exp : R -> T -> Prop;
  (** Where exp(log g) is exactly g. *)
  exact_log : G -> Prop }.
Arguments well_formed {G T}. Arguments left_velocity {G T}. Arguments right_velocity {G T}.
Arguments coord {G T}. Arguments exact_exp {G T}. Arguments exact_log {G T}.
Definition so3_calc : lie_calc so3 vec3 :=
  LieCalc _ _ so3_wf so3_left_velocity so3_right_velocity so3_coord (fun _ _ => True) (fun _ => True).
Definition se3_calc : lie_calc se3 tan6 :=
  LieCalc _ _ se3_wf se3_left_velocity se3_right_velocity se3_coord
    (fun k v => trot v = vzero \/ TINY_SQUARE_ANGLE < k * k * norm2 (trot v))
    (fun g => plain_angle (norm2 (trot (se3_log g)))).

Section Jets.
Context {G T : Type} (c : lie_calc G T).

(** Derivative of a curve of tangent vectors, coordinate by coordinate. *)
Definition tangent_derivative (u : R -> T) (t : R) (u' : T) : Prop :=
  forall n, derivable_pt_lim (fun s => coord c (u s) n) t (coord c u' n).

(** The curve [p] passes [g] at time [t]; near [t] it has velocities, which at [t] equal
    [d] and change at rate [d2]. *)
Definition describes (velocity : (R -> G) -> R -> T -> Prop) (p : R -> G) (t : R) (g : G) (d d2 : T) : Prop :=
  p t = g /\
  exists w r, 0 < r /\ (forall s, Rabs (s - t) < r -> velocity p s (w s)) /\ w t = d /\ tangent_derivative w t d2.
Definition describes_l (p : R -> G) (t : R) (j : jet_l G T) : Prop :=
  describes (left_velocity c) p t (frame_from_ref j) (d_frame_from_ref j) (d2_frame_from_ref j).
Definition describes_r (p : R -> G) (t : R) (j : jet_r G T) : Prop :=
  describes (right_velocity c) p t (ref_from_frame j) (d_ref_from_frame j) (d2_ref_from_frame j).

(** Jets whose transform is a genuine one. *)
Definition jet_l_wf (j : jet_l G T) : Prop := well_formed c (frame_from_ref j).
Definition jet_r_wf (j : jet_r G T) : Prop := well_formed c (ref_from_frame j).
End Jets.

(** The two groups the curve templates are instantiated with. *)
Inductive curve_group : forall G T, lie_ops G T -> lie_calc G T -> Prop :=
  | cg_so3 : curve_group so3 vec3 so3_ops so3_calc
  | cg_se3 : curve_group se3 tan6 se3_ops se3_calc.
Arguments curve_group {G T}.

(** SE3 with the exact exponential in place of the computed one: the translation is where
    the screw motion of the tangent vector leads in unit time. *)
Definition se3_ideal_exp (v : tan6) (a : frame_args) : outcome se3 :=
  let* g := se3_exp v a in
  Ok (SE3 (rotation g) (screw (trot v) (ttrans v) 1) (se3_into g) (se3_from g)).
Definition se3_ideal_ops : lie_ops se3 tan6 :=
  LieOps _ _ se3_mul se3_inverse se3_identity se3_ideal_exp se3_log se3_adjoint_times se3_adjoint_times_alg
    se3_into se3_from se3_default tadd tscale tzero.
Definition se3_ideal_calc : lie_calc se3 tan6 :=
  LieCalc _ _ se3_wf se3_left_velocity se3_right_velocity se3_coord (fun _ _ => True)
    (fun g => plain_angle (norm2 (trot (se3_log g)))).

(** Along the jets [J], the stated derivatives are the derivatives at time [t]. *)
Definition true_derivatives {G T} (c : lie_calc G T) (J : R -> jet_l G T) (t : R) : Prop :=
  left_velocity c (fun s => frame_from_ref (J s)) t (d_frame_from_ref (J t)) /\
  tangent_derivative c (fun s => d_frame_from_ref (J s)) t (d2_frame_from_ref (J t)).

(** Calls of the setters, and what a getter returns after them: the last value given to its
    own setter, or else what it returned before. *)
Inductive jet_set (G T : Type) := SetPose (g : G) | SetVelocity (v : T) | SetAcceleration (v : T).
Arguments SetPose {G T}. Arguments SetVelocity {G T}. Arguments SetAcceleration {G T}.
Fixpoint last_given {C A : Type} (given : C -> option A) (before : A) (calls : list C) : A :=
  match calls with
  | [] => before
  | c :: calls => last_given given (match given c with Some a => a | None => before end) calls
  end.
Definition pose_given {G T} (c : jet_set G T) : option G := match c with SetPose g => Some g | _ => None end.
Definition velocity_given {G T} (c : jet_set G T) : option T := match c with SetVelocity v => Some v | _ => None end.
Definition acceleration_given {G T} (c : jet_set G T) : option T := match c with SetAcceleration v => Some v | _ => None end.
(** The calls in turn. *)
Definition set_l {G T} (j : jet_l G T) (c : jet_set G T) : jet_l G T :=
  match c with SetPose g => jl_set_frame j g | SetVelocity v => jl_set_d j v | SetAcceleration v => jl_set_d2 j v end.
Definition set_r {G T} (j : jet_r G T) (c : jet_set G T) : jet_r G T :=
  match c with SetPose g => jr_set_frame j g | SetVelocity v => jr_set_d j v | SetAcceleration v => jr_set_d2 j v end.
