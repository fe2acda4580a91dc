(** Model of the example programs that build circles and rotations, over the reals: the
    constant M_PI is taken to be the number it stands for. *)
From Coq Require Export Reals.
From Verif Require Import Cpp UuidModel Vec GeomModel JetModel CurveModel.
Local Open Scope R_scope.

(** A range-for loop that pushes one result per element to a vector:
    example_02_distance_parameterized_unit_circle.cc:74-77, 123-127. *)
Fixpoint push_each {A B} (f : A -> outcome B) (l : list A) : outcome (list B) :=
  match l with
  | [] => Ok []
  | a :: l' => let* b := f a in let* bs := push_each f l' in Ok (b :: bs)
  end.

(** Vector3d::UnitX, UnitY, UnitZ: Eigen, used at
    example_02_distance_parameterized_unit_circle.cc:34 and test_helpers.cc:29-30. *)
Definition unit_x : vec3 := V3 1 0 0.
Definition unit_y : vec3 := V3 0 1 0.
Definition unit_z : vec3 := V3 0 0 1.

(** unit_circle: visualization/examples/example_02_distance_parameterized_unit_circle.cc:20-58. *)
Definition unit_circle (translation_x translation_y translation_z scale_factor : R) : outcome (list se3) :=
  let* ref_from_000deg := se3_of_translation
    (V3 (scale_factor * (1 + translation_x)) (scale_factor * translation_y) (scale_factor * translation_z)) None in
  let* r090 := so3_of_angle_axis (PI / 2) unit_z None in
  let* ref_from_090deg := se3_make r090
    (V3 (scale_factor * translation_x) (scale_factor * (1 + translation_y)) (scale_factor * translation_z)) None in
  let* r180 := so3_of_angle_axis PI unit_z None in
  let* ref_from_180deg := se3_make r180
    (V3 (scale_factor * (-1 + translation_x)) (scale_factor * translation_y) (scale_factor * translation_z)) None in
  let* r270 := so3_of_angle_axis (3 * PI / 2) unit_z None in
  let* ref_from_270deg := se3_make r270
    (V3 (scale_factor * translation_x) (scale_factor * (-1 + translation_y)) (scale_factor * translation_z)) None in
  Ok [ref_from_000deg; ref_from_090deg; ref_from_180deg; ref_from_270deg; ref_from_000deg].

(** framed_unit_circle: example_02_distance_parameterized_unit_circle.cc:60-80. *)
Definition framed_unit_circle (into_frame out_frame : frame) (translation_x translation_y translation_z scale_factor : R) :
  outcome (list se3) :=
  let* raw_se3_points := unit_circle translation_x translation_y translation_z scale_factor in
  push_each (fun point => se3_set_frames point into_frame out_frame) raw_se3_points.

(** The loop that mounts the sensor:
    example_02_distance_parameterized_unit_circle.cc:121-127. *)
Definition world_from_sensor_points (world_from_robot_points : list se3) (robot_from_sensor_transform : se3) : outcome (list se3) :=
  push_each (fun world_from_robot => se3_mul world_from_robot robot_from_sensor_transform) world_from_robot_points.

(** make_circle_curve: curves/test_helpers.cc:22-48, which is also
    visualization/examples/example_03_time_parameterized_closed_curve.cc:27-51. *)
Definition circle_velocity : tan6 := T6 (vscale (- 1) unit_z) (vscale (- 1) unit_x).
Definition circle_control (into from : frame) (time : R) : outcome (control se3 tan6) :=
  let* r := so3_exp (vscale (- (PI / 2 + time)) unit_z) None in
  let* g := se3_make r unit_y (Some (into, from)) in
  Ok (Control time (JetL g circle_velocity tzero)).
Definition circle_times : list R := [0; PI / 2; PI; 3 * (PI / 2); 2 * PI].
Definition make_circle_curve (into from : frame) : outcome (tcurve se3 tan6) :=
  let* control_points := push_each (circle_control into from) circle_times in
  tc_make se3_ops control_points.

(** translate_t_curve: example_03_time_parameterized_closed_curve.cc:53-72. *)
Definition translate_control (sensor_from_curve : se3) (p : control se3 tan6) : outcome (control se3 tan6) :=
  let* sensor_from_world := se3_mul sensor_from_curve (frame_from_ref (c_point p)) in
  Ok (Control (c_time p) (JetL sensor_from_world (d_frame_from_ref (c_point p)) (d2_frame_from_ref (c_point p)))).
Definition translate_t_curve (curve_from_world : tcurve se3 tan6) (sensor_from_curve : se3) : outcome (tcurve se3 tan6) :=
  let* control_points := push_each (translate_control sensor_from_curve) (control_pts curve_from_world) in
  tc_make se3_ops control_points.

(** The poses of the curve of examples/curves.cc:42-48. *)
Definition s_bend (world_frame d_curve_frame : frame) : outcome (list se3) :=
  let fr := Some (world_frame, d_curve_frame) in
  let* a := se3_identity fr in
  let* b := se3_of_translation (V3 1 0 0) fr in
  let* r := so3_of_angle_axis (PI / 2) (V3 0 0 1) None in
  let* c := se3_make r (V3 2 1 0) fr in
  let* d := se3_make r (V3 2 2 0) fr in
  let* e := se3_of_translation (V3 3 3 0) fr in
  Ok [a; b; c; d; e].

(** scene_from_robot_rotation: examples/liegroups.cc:33-35. *)
Definition euler_rotation (phi theta psi : R) : outcome so3 :=
  let* x := so3_of_angle_axis phi (V3 1 0 0) None in
  let* y := so3_of_angle_axis theta (V3 0 1 0) None in
  let* z := so3_of_angle_axis psi (V3 0 0 1) None in
  let* xy := so3_mul x y in
  so3_mul xy z.
(** scene_from_robot_rotation_wrong: liegroups.cc:40. *)
Definition wrong_rotation (phi theta psi : R) : outcome so3 := so3_exp (V3 phi theta psi) None.

(** scene_from_interped_rotation: liegroups.cc:64-69. *)
Definition interped_rotation (epsilon fraction : R) (axis : vec3) : outcome so3 :=
  let* scene_from_a := so3_of_angle_axis (PI - epsilon) axis None in
  let* scene_from_b := so3_of_angle_axis (- PI + epsilon) axis None in
  let* a_from_scene := so3_inverse scene_from_a in
  let* a_from_b := so3_mul a_from_scene scene_from_b in
  let* part := so3_interp a_from_b fraction in
  so3_mul scene_from_a part.
