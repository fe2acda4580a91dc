(** Model of the example programs that place a robot and its sensor and that fly a drone
    round a bend, over the reals: the constants M_PI and M_PI_2 are taken to be the numbers
    they stand for, and the frames, which the programs draw at random, are arguments.  What
    VIEW does with the values is in ViewModel. *)
From Coq Require Export Reals.
From Verif Require Import Cpp UuidModel Vec GeomModel JetModel CurveModel StateModel ExamModel.
Local Open Scope R_scope.

(** world_from_robot of visualization/examples/example_00_rigid_transform.cc:16-47, without
    frames. *)
Definition rigid_transform : outcome se3 :=
  let* world_from_robot_rot := so3_of_angle_axis (PI / 2) (V3 0 0 1) None in
  se3_make world_from_robot_rot (V3 1 0 1) None.

(** visualization/examples/example_01_framed_transform_composition.cc:46-60, 67-70, 80 and
    the composition that is commented out, 92-98. *)
Record composition_example := Composed {
  world_from_robot : se3; robot_from_sensor : se3; world_from_sensor : se3; bad_world_from_sensor : outcome se3 }.
Definition framed_composition (world robot sensor : frame) : outcome composition_example :=
  let* world_from_robot_rot := so3_of_angle_axis (PI / 2) (V3 0 0 1) None in
  let* world_from_robot := se3_make world_from_robot_rot (V3 1 0 1) (Some (world, robot)) in
  let* robot_from_sensor := se3_of_translation (V3 (1 / 10) 0 (1 / 10)) (Some (robot, sensor)) in
  let* world_from_sensor := se3_mul world_from_robot robot_from_sensor in
  Ok (Composed world_from_robot robot_from_sensor world_from_sensor
    (let* sensor_from_robot := se3_inverse robot_from_sensor in se3_mul world_from_robot sensor_from_robot)).

(** DEFAULT_TIMES and WAYPOINTS:
    visualization/examples/example_04_actor_trajectory.cc:35-42. *)
Definition default_times : list R := [0; 33 / 2; 33].
Definition waypoint_0 : vec3 := V3 0 (-3) 0.
Definition waypoint_1 : vec3 := V3 8 0 0.
Definition waypoint_2 : vec3 := V3 0 3 0.
(** timestamps: example_04_actor_trajectory.cc:45-53; ZERO_TIME is the epoch. *)
Definition timestamps : outcome (list Z) := push_each (fun t => let* d := real_as_duration t in add64 0 d) default_times.
(** FWD_V_MPS, TURN_FWD_V_MPS, TURN_R_M: example_04_actor_trajectory.cc:61, 71-72. *)
Definition fwd_v_mps : R := 5.
Definition turn_fwd_v_mps : R := 7.
Definition turn_r_m : R := 150.
(** turn_ang_v_radps: example_04_actor_trajectory.cc:73. *)
Definition turn_ang_v_radps : R := sqrt (turn_fwd_v_mps / turn_r_m).
(** std::array::at on the times, example_04_actor_trajectory.cc:86-88: out of range throws. *)
Definition time_at (times : list Z) (n : nat) : outcome Z :=
  match nth_error times n with Some t => Ok t | None => Throw end.
(** out_and_back_banked: example_04_actor_trajectory.cc:57-89. *)
Definition out_and_back_banked (REF_FRAME BOD_FRAME : frame) : outcome traj :=
  let* r0 := so3_identity None in
  let* ref_from_0 := se3_make r0 waypoint_0 (Some (REF_FRAME, BOD_FRAME)) in
  let state_0 := rs_set_linear_velocity (rs_of_pose ref_from_0) (V3 fwd_v_mps 0 0) in
  let* yawed := so3_exp (vscale (PI / 2) unit_z) None in
  let* rolled := so3_exp (vscale (- (PI / 2)) unit_x) None in
  let* r1 := so3_mul yawed rolled in
  let* ref_from_1 := se3_make r1 waypoint_1 (Some (REF_FRAME, BOD_FRAME)) in
  let state_1 := rs_set_linear_velocity (rs_of_pose ref_from_1) (V3 turn_fwd_v_mps 0 0) in
  let state_1 := rs_set_angular_velocity state_1 (V3 0 (- turn_ang_v_radps) 0) in
  let* r2 := so3_exp (vscale PI unit_z) None in
  let* ref_from_2 := se3_make r2 waypoint_2 (Some (REF_FRAME, BOD_FRAME)) in
  let state_2 := rs_set_linear_velocity (rs_of_pose ref_from_2) (V3 fwd_v_mps 0 0) in
  let* times := timestamps in
  let* t0 := time_at times 0 in
  let* t1 := time_at times 1 in
  let* t2 := time_at times 2 in
  tr_make [TPoint t0 state_0; TPoint t1 state_1; TPoint t2 state_2].
