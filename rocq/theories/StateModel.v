(** Model of resim/actor/state/rigid_body_state.{hh,cc} and trajectory.{hh,cc}.  Poses,
    derivatives and curve times are real numbers; the conversions between durations and
    seconds are those of FloatModel, rounding included. *)
From Flocq Require Import Core.
From Verif Require Import Cpp UuidModel GeomModel JetModel CurveModel TimeModel FloatModel FloatSpec.
Local Open Scope R_scope.

(** ** RigidBodyState<SE3>, the only instance: rigid_body_state.cc:166 *)
(** The data member: rigid_body_state.hh:144. *)
Record rigid_state := RigidState { ref_from_body_two_jet : jet_r se3 tan6 }.
(** Velocity, Acceleration, StateDerivatives: rigid_body_state.hh:33-48. *)
Record state_derivatives := StateDerivatives { d_linear_mps : vec3; d_angular_radps : vec3; d_linear_mpss : vec3; d_angular_radpss : vec3 }.
(** tangent_vector_from_parts, tangent_vector_rotation_part, tangent_vector_translation_part:
    resim/transforms/se3.cc:219-249; rotations first. *)
Definition tangent_vector_from_parts (rot trans : vec3) : tan6 := T6 rot trans.
Definition tangent_vector_rotation_part (v : tan6) : vec3 := trot v.
Definition tangent_vector_translation_part (v : tan6) : vec3 := ttrans v.
(** Assignment to those parts. *)
Definition assign_rotation_part (v : tan6) (rot : vec3) : tan6 := T6 rot (ttrans v).
Definition assign_translation_part (v : tan6) (trans : vec3) : tan6 := T6 (trot v) trans.

(** RigidBodyState(): rigid_body_state.hh:50. *)
Definition rs_default : rigid_state := RigidState (jr_default se3_ops).
(** set_ref_from_body: rigid_body_state.cc:121-124. *)
Definition rs_set_ref_from_body (s : rigid_state) (g : se3) : rigid_state :=
  RigidState (jr_set_frame (ref_from_body_two_jet s) g).
(** RigidBodyState(Group): rigid_body_state.cc:31-34. *)
Definition rs_of_pose (g : se3) : rigid_state := rs_set_ref_from_body rs_default g.
(** RigidBodyState(Group, StateDerivatives): rigid_body_state.cc:36-47. *)
Definition rs_make (g : se3) (d : state_derivatives) : rigid_state :=
  RigidState (JetR g (tangent_vector_from_parts (d_angular_radps d) (d_linear_mps d))
    (tangent_vector_from_parts (d_angular_radpss d) (d_linear_mpss d))).
(** RigidBodyState(TwoJetR): rigid_body_state.cc:49-51. *)
Definition rs_of_jet (j : jet_r se3 tan6) : rigid_state := RigidState j.
(** RigidBodyState::identity: rigid_body_state.cc:53-58. *)
Definition rs_identity (a : frame_args) : outcome rigid_state :=
  let* j := jr_identity se3_ops a in Ok (rs_of_jet j).
(** operator*: rigid_body_state.cc:60-64. *)
Definition rs_mul (a b : rigid_state) : outcome rigid_state :=
  let* j := jr_mul se3_ops (ref_from_body_two_jet a) (ref_from_body_two_jet b) in Ok (rs_of_jet j).
(** inverse_times: rigid_body_state.cc:66-70. *)
Definition rs_inverse_times (a b : rigid_state) : outcome rigid_state :=
  let* i := jr_inverse se3_ops (ref_from_body_two_jet a) in
  let* j := jr_mul se3_ops i (ref_from_body_two_jet b) in Ok (rs_of_jet j).
(** ref_from_body: rigid_body_state.cc:72-75. *)
Definition ref_from_body (s : rigid_state) : se3 := ref_from_frame (ref_from_body_two_jet s).
(** body_linear_velocity_mps and the like: rigid_body_state.cc:88-113. *)
Definition linear_velocity (s : rigid_state) : vec3 := tangent_vector_translation_part (d_ref_from_frame (ref_from_body_two_jet s)).
Definition angular_velocity (s : rigid_state) : vec3 := tangent_vector_rotation_part (d_ref_from_frame (ref_from_body_two_jet s)).
Definition linear_acceleration (s : rigid_state) : vec3 := tangent_vector_translation_part (d2_ref_from_frame (ref_from_body_two_jet s)).
Definition angular_acceleration (s : rigid_state) : vec3 := tangent_vector_rotation_part (d2_ref_from_frame (ref_from_body_two_jet s)).
(** body_derivatives: rigid_body_state.cc:77-86. *)
Definition rs_derivatives (s : rigid_state) : state_derivatives :=
  StateDerivatives (linear_velocity s) (angular_velocity s) (linear_acceleration s) (angular_acceleration s).
(** The setters: rigid_body_state.cc:126-164. *)
Definition rs_set_linear_velocity (s : rigid_state) (v : vec3) : rigid_state :=
  let j := ref_from_body_two_jet s in RigidState (jr_set_d j (assign_translation_part (d_ref_from_frame j) v)).
Definition rs_set_angular_velocity (s : rigid_state) (v : vec3) : rigid_state :=
  let j := ref_from_body_two_jet s in RigidState (jr_set_d j (assign_rotation_part (d_ref_from_frame j) v)).
Definition rs_set_linear_acceleration (s : rigid_state) (v : vec3) : rigid_state :=
  let j := ref_from_body_two_jet s in RigidState (jr_set_d2 j (assign_translation_part (d2_ref_from_frame j) v)).
Definition rs_set_angular_acceleration (s : rigid_state) (v : vec3) : rigid_state :=
  let j := ref_from_body_two_jet s in RigidState (jr_set_d2 j (assign_rotation_part (d2_ref_from_frame j) v)).

(** ** Trajectory *)
(** Trajectory::Control: trajectory.hh:42-47. *)
Record tpoint := TPoint { at_time : Z; state : rigid_state }.
(** The data members: trajectory.hh:97-98.  Timestamps are int64 nanosecond counts. *)
Record traj := Traj { tr_curve : tcurve se3 tan6; tr_start : Z }.
(** as_duration of resim/time/timestamp.hh:30-33 for a time that is a real number: that of
    the double with this value (lemma [as_duration_real]). *)
Definition real_as_duration (t : R) : outcome Z := chk64 (Ztrunc (rd (t * IZR NANO))).
(** The seconds of a duration, as a real number. *)
Definition seconds (d : Z) : R := val (as_seconds d).

(** Trajectory(): trajectory.hh:50; time_point is initialized to zero. *)
Definition tr_empty : traj := Traj tc_empty 0.
(** Trajectory(TCurve, Timestamp): trajectory.cc:28-30. *)
Definition tr_of_curve (k : tcurve se3 tan6) (start_time : Z) : traj := Traj k start_time.
(** start_time: trajectory.cc:69. *)
Definition tr_start_time (t : traj) : Z := tr_start t.
(** reference_frame, body_frame: trajectory.cc:79-91. *)
Definition tr_reference_frame (t : traj) : outcome frame :=
  let* _ := reassert (negb (vec_empty (control_pts (tr_curve t)))) in
  let* b := vec_back (control_pts (tr_curve t)) in Ok (se3_from (frame_from_ref (c_point b))).
Definition tr_body_frame (t : traj) : outcome frame :=
  let* _ := reassert (negb (vec_empty (control_pts (tr_curve t)))) in
  let* b := vec_back (control_pts (tr_curve t)) in Ok (se3_into (frame_from_ref (c_point b))).
(** A call on the member curve_. *)
Definition on_curve {A} (f : call (tcurve se3 tan6) A) : call traj A :=
  fun t => match f (tr_curve t) with (k, r) => (Traj k (tr_start t), r) end.
(** append(Control): trajectory.cc:32-50. *)
Definition tr_append (p : tpoint) : call traj unit :=
  do first := calc (fun t => Ok (vec_empty (control_pts (tr_curve t)))) in
  do _ := (if first then update (fun t => Traj (tr_curve t) (at_time p))
           else
             do f := calc tr_body_frame in
             calc (fun _ => reassert (frame_eqb (se3_from (ref_from_body (state p))) f))) in
  do d := calc (fun t => sub64 (at_time p) (tr_start_time t)) in
  do j := calc (fun _ => left_two_jet se3_ops (ref_from_body_two_jet (state p))) in
  on_curve (tc_append se3_ops (Control (seconds d) j)).
(** append(initializer_list): trajectory.cc:52-56. *)
Definition tr_append_list (ps : list tpoint) : call traj unit := for_each tr_append ps.
(** Trajectory(initializer_list): trajectory.cc:24-26. *)
Definition tr_make (ps : list tpoint) : outcome traj := construct tr_empty (tr_append_list ps).
(** point_at(Duration): trajectory.cc:63-67. *)
Definition tr_point_from_start (t : traj) (from_start : Z) : outcome rigid_state :=
  let* j := tc_point_at se3_ops (tr_curve t) (seconds from_start) in
  let* r := right_two_jet se3_ops j in Ok (rs_of_jet r).
(** point_at(Timestamp): trajectory.cc:58-61. *)
Definition tr_point_at (t : traj) (at_time : Z) : outcome rigid_state :=
  let* d := sub64 at_time (tr_start_time t) in
  let* j := tc_point_at se3_ops (tr_curve t) (seconds d) in
  let* r := right_two_jet se3_ops j in Ok (rs_of_jet r).
(** time_duration: trajectory.cc:75-77. *)
Definition tr_time_duration (t : traj) : outcome Z :=
  let* b := vec_back (control_pts (tr_curve t)) in real_as_duration (c_time b).
(** end_time: trajectory.cc:71-73. *)
Definition tr_end_time (t : traj) : outcome Z :=
  let* d := tr_time_duration t in add64 (tr_start t) d.
