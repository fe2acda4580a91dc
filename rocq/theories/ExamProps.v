(** The example programs that build circles and rotations: C70. *)
From Coq Require Import Lra.
From Verif Require Import Cpp UuidModel RotSpec GeomModel RotProofs FrameSpec FrameProofs LieSpec JetModel CurveModel CurveSpec DCurveSpec
  ExamModel ExamSpec ExamProofs ExamProofs2 ExamProofs3.
Local Open Scope R_scope.

(** ** Distance curves *)
(** The five poses of [unit_circle] make a curve that is the circle: it is as long as the
    circle, and at every arc length the pose is the one on the circle that faces outwards
    at that angle, in the frames asked for. *)
Theorem c70_circle : forall tx ty tz r, r <> 0 ->
  exists pts k, unit_circle tx ty tz r = Ok pts /\ dc_make pts = Ok k /\ dc_length k = Ok (2 * PI * Rabs r) /\
    forall a, 0 <= a <= 2 * PI -> exists g, dc_point_at k (a * Rabs r) = Ok (Some g) /\
      posed (/ 10^23 * (a * Rabs r)) (yaw a) (V3 (r * (cos a + tx)) (r * (sin a + ty)) (r * tz)) null_frame null_frame g.
Proof.
  intros tx ty tz r N. destruct (circle_curve_ok null_frame null_frame tx ty tz r (frames_ok_null) N) as (k & K).
  eexists; exists k; split; [apply unit_circle_is|exact K].
Qed.
Print Assumptions c70_circle.

Theorem c70_framed_circle : forall i f tx ty tz r, i <> null_frame -> f <> null_frame -> r <> 0 ->
  exists pts k, framed_unit_circle i f tx ty tz r = Ok pts /\ dc_make pts = Ok k /\ dc_length k = Ok (2 * PI * Rabs r) /\
    forall a, 0 <= a <= 2 * PI -> exists g, dc_point_at k (a * Rabs r) = Ok (Some g) /\
      posed (/ 10^23 * (a * Rabs r)) (yaw a) (V3 (r * (cos a + tx)) (r * (sin a + ty)) (r * tz)) i f g.
Proof.
  intros i f tx ty tz r Ni Nf N. destruct (circle_curve_ok i f tx ty tz r) as (k & K); [unfold frames_ok; tauto|exact N|].
  eexists; exists k; split; [apply framed_circle_is; assumption|exact K].
Qed.
Print Assumptions c70_framed_circle.

(** The defaults of the example: no offset, radius one; a quarter of the way round. *)
Definition ex_world : frame := repeat 1%N 16.
Definition ex_robot : frame := repeat 2%N 16.
Definition ex_sensor : frame := repeat 3%N 16.
Lemma ex_frames : ex_world <> null_frame /\ ex_robot <> null_frame /\ ex_sensor <> null_frame.
Proof. repeat split; discriminate. Qed.
Example c70_circle_example : (1 : R) <> 0 /\ ex_world <> null_frame /\ ex_robot <> null_frame /\ 0 <= PI / 2 <= 2 * PI /\
  exists pts k g, framed_unit_circle ex_world ex_robot 0 0 0 1 = Ok pts /\ dc_make pts = Ok k /\ dc_point_at k (PI / 2) = Ok (Some g) /\
    rotation_matrix (rotation g) = M3 0 (-1) 0 1 0 0 0 0 1 /\ norm (vsub (position g) (V3 0 1 0)) <= / 10^20.
Proof.
  destruct ex_frames as (Nw & Nr & _). pose proof PI_RGT_0 as Pi. pose proof PI_4 as P4.
  split; [lra|]. split; [exact Nw|]. split; [exact Nr|]. split; [lra|].
  destruct (c70_framed_circle ex_world ex_robot 0 0 0 1 Nw Nr) as (pts & k & E & K & _ & Q); [lra|].
  destruct (Q (PI / 2)) as (g & Eg & P1 & P2 & _); [lra|]. rewrite Rabs_R1, Rmult_1_r in Eg, P2.
  exists pts, k, g. split; [exact E|]. split; [exact K|]. split; [exact Eg|]. split.
  - rewrite P1. unfold yaw. rewrite cos_PI2, sin_PI2. reflexivity.
  - rewrite cos_PI2, sin_PI2 in P2. replace (V3 0 1 0) with (V3 (1 * (0 + 0)) (1 * (1 + 0)) (1 * 0)) by (f_equal; ring).
    eapply Rle_trans; [exact P2|]. lra.
Qed.

(** A sensor at any place on the robot, with any orientation, goes round on its own circle
    about the same axis: its distances are counted along that circle, and its poses are
    the robot's with the mounting pose applied. *)
Theorem c70_sensor : forall i f h, i <> null_frame -> f <> null_frame -> se3_wf h -> se3_into h = f ->
  let d := norm (V3 (1 + vx (translation h)) (vy (translation h)) 0) in 0 < d ->
  exists robot pts k, framed_unit_circle i f 0 0 0 1 = Ok robot /\ world_from_sensor_points robot h = Ok pts /\
    dc_make pts = Ok k /\ dc_length k = Ok (2 * PI * d) /\
    forall a, 0 <= a <= 2 * PI -> exists g, dc_point_at k (a * d) = Ok (Some g) /\
      posed (/ 10^23 * (a * d)) (mmul (yaw a) (rotation_matrix (rotation h)))
        (vadd (mvec (yaw a) (translation h)) (V3 (cos a) (sin a) 0)) i (se3_from h) g.
Proof.
  intros i f h Ni Nf W E d P. destruct (sensor_curve_ok i f h) as (pts & k & K); [unfold frames_ok; tauto|exact W|exact E|exact P|].
  eexists; exists pts, k; split; [apply framed_circle_is; assumption|exact K].
Qed.
Print Assumptions c70_sensor.

(** The sensor of the example is one metre ahead of the robot, one metre up, and faces
    left; it goes round on a circle of radius two. *)
Definition ex_mount : se3 := SE3 (unframed (yaw (PI / 2))) (V3 1 0 1) ex_robot ex_sensor.
Example c70_sensor_example : se3_wf ex_mount /\ se3_into ex_mount = ex_robot /\
  norm (V3 (1 + vx (translation ex_mount)) (vy (translation ex_mount)) 0) = 2 /\
  se3_make (unframed (angle_axis_matrix (PI / 2) (V3 0 0 1))) (V3 1 0 1) (Some (ex_robot, ex_sensor)) = Ok ex_mount.
Proof.
  destruct ex_frames as (Nw & Nr & Ns). assert (F : frames_ok ex_robot ex_sensor) by (unfold frames_ok; tauto).
  split; [split; [apply yaw_rot|]; split; [exact F|split; reflexivity]|]. split; [reflexivity|]. split.
  - unfold norm, norm2, dot. cbn. replace ((1 + 1) * (1 + 1) + 0 * 0 + 0 * 0) with (2 * 2) by ring. apply sqrt_square. lra.
  - unfold se3_make. rewrite make_frames_ok by exact F. cbn [obind]. unfold ex_mount. rewrite turn_yaw. reflexivity.
Qed.

(** The curve of examples/curves.cc: a metre ahead, a quarter turn to the left, a metre
    ahead, and a quarter turn to the right, with the arc lengths these have. *)
Theorem c70_bend : forall i f, frames_ok i f -> exists pts k, s_bend i f = Ok pts /\ dc_make pts = Ok k /\ dc_length k = Ok (2 + PI) /\
  forall z,
    (0 <= z <= 1 -> exists g, dc_point_at k z = Ok (Some g) /\ posed (/ 10^23 * z) mid (V3 z 0 0) i f g) /\
    (0 < z <= PI / 2 -> exists g, dc_point_at k (1 + z) = Ok (Some g) /\ posed (/ 10^23 * z) (yaw z) (V3 (1 + sin z) (1 - cos z) 0) i f g) /\
    (0 < z <= 1 -> exists g, dc_point_at k (1 + PI / 2 + z) = Ok (Some g) /\ posed (/ 10^23 * z) (yaw (PI / 2)) (V3 2 (1 + z) 0) i f g) /\
    (0 < z <= PI / 2 -> exists g, dc_point_at k (2 + PI / 2 + z) = Ok (Some g) /\
       posed (/ 10^23 * z) (yaw (PI / 2 - z)) (V3 (3 - cos z) (2 + sin z) 0) i f g).
Proof. exact bend_ok. Qed.
Print Assumptions c70_bend.
Example c70_bend_example : frames_ok ex_world ex_robot /\ 0 < 1 / 2 <= 1 /\ 0 < 1 / 2 <= PI / 2.
Proof. destruct ex_frames as (Nw & Nr & _). split; [unfold frames_ok; tauto|]. pose proof PI2_1. lra. Qed.

(** ** Time curves *)
(** The curve of [make_circle_curve] is the unit circle once round at one radian per second:
    the inverse of what the curve returns is the pose of the body at every time. *)
Theorem c70_time_circle : forall i f, frames_ok i f -> exists k, make_circle_curve i f = Ok k /\ tc_start_time k = Ok 0 /\ tc_end_time k = Ok (2 * PI) /\
  forall t, 0 <= t <= 2 * PI -> exists j g, tc_point_at se3_ops k t = Ok j /\ se3_inverse (frame_from_ref j) = Ok g /\
    posed (/ 10^22) (yaw (PI / 2 + t)) (V3 (cos t) (sin t) 0) f i g /\ trot (d_frame_from_ref j) = V3 0 0 (-1) /\ trot (d2_frame_from_ref j) = vzero.
Proof. exact circle_time. Qed.
Print Assumptions c70_time_circle.

(** [translate_t_curve] with an offset along the axis gives the circle at another height. *)
Theorem c70_raised : forall s i f c, frames_ok i f -> frames_ok s i -> exists k h k', make_circle_curve i f = Ok k /\
  se3_of_translation (V3 0 0 c) (Some (s, i)) = Ok h /\ translate_t_curve k h = Ok k' /\
  forall t, 0 <= t <= 2 * PI -> exists j g, tc_point_at se3_ops k' t = Ok j /\ se3_inverse (frame_from_ref j) = Ok g /\
    posed (/ 10^22) (yaw (PI / 2 + t)) (V3 (cos t) (sin t) (- c)) f s g /\ trot (d_frame_from_ref j) = V3 0 0 (-1) /\ trot (d2_frame_from_ref j) = vzero.
Proof. exact circle_raised. Qed.
Print Assumptions c70_raised.

(** With any other offset, the velocities of the control points are not those of the
    offset body: [translate_t_curve] carries them over unchanged, while a body rigidly
    attached to the first moves with the adjoint of its velocity. *)
Theorem c70_shifted : forall s i f v, frames_ok i f -> frames_ok s i -> exists k h k' j j', make_circle_curve i f = Ok k /\
  se3_of_translation v (Some (s, i)) = Ok h /\ translate_t_curve k h = Ok k' /\
  tc_point_at se3_ops k 0 = Ok j /\ tc_point_at se3_ops k' 0 = Ok j' /\ se3_mul h (frame_from_ref j) = Ok (frame_from_ref j') /\
  (d_frame_from_ref j' = se3_adjoint_times h (d_frame_from_ref j) <-> vx v = 0 /\ vy v = 0).
Proof. exact circle_shifted. Qed.
Print Assumptions c70_shifted.
Theorem c70_shifted_refuted : exists k h k' j j', make_circle_curve ex_robot ex_world = Ok k /\
  se3_of_translation (V3 1 0 0) (Some (ex_sensor, ex_robot)) = Ok h /\ translate_t_curve k h = Ok k' /\
  tc_point_at se3_ops k 0 = Ok j /\ tc_point_at se3_ops k' 0 = Ok j' /\ se3_mul h (frame_from_ref j) = Ok (frame_from_ref j') /\
  d_frame_from_ref j' <> se3_adjoint_times h (d_frame_from_ref j).
Proof.
  destruct ex_frames as (Nw & Nr & Ns).
  destruct (circle_shifted ex_sensor ex_robot ex_world (V3 1 0 0)) as (k & h & k' & j & j' & E1 & E2 & E3 & E4 & E5 & E6 & X); [unfold frames_ok; tauto..|].
  exists k, h, k', j, j'. repeat (split; [assumption|]). intro H. apply X in H. cbn in H. lra.
Qed.
Print Assumptions c70_shifted_refuted.
Example c70_time_example : frames_ok ex_robot ex_world /\ frames_ok ex_sensor ex_robot /\ 0 <= 1 <= 2 * PI.
Proof. destruct ex_frames as (Nw & Nr & Ns). pose proof PI2_1. repeat split; try tauto; lra. Qed.

(** ** Rotations *)
(** Interpolating between two rotations on either side of half a turn goes through the
    half turn, whichever way their angles are written. *)
Theorem c70_midpoint : forall epsilon fraction axis, 0 < epsilon < PI / 2 -> unit_vec axis -> exists g, interped_rotation epsilon fraction axis = Ok g /\
  rotation_matrix g = angle_axis_matrix (PI + (2 * fraction - 1) * epsilon) axis /\ so3_into g = null_frame /\ so3_from g = null_frame.
Proof. exact interped_ok. Qed.
Print Assumptions c70_midpoint.
Example c70_midpoint_example : 0 < 1 / 10 < PI / 2 /\ unit_vec (V3 (3/5) (4/5) 0) /\ PI + (2 * (1 / 2) - 1) * (1 / 10) = PI.
Proof. pose proof PI2_1. split; [lra|]. split; [unfold unit_vec, norm2; vsimpl; field|]. lra. Qed.

(** Exponentiating the three angles gives the rotation composed of them if two of them are
    zero, and never does if just one is and the turn is short of a whole one. *)
Theorem c70_one_angle : forall phi theta psi, (phi = 0 /\ theta = 0) \/ (phi = 0 /\ psi = 0) \/ (theta = 0 /\ psi = 0) ->
  same_rotation (euler_rotation phi theta psi) (wrong_rotation phi theta psi).
Proof. exact euler_one. Qed.
Print Assumptions c70_one_angle.
Theorem c70_two_angles : forall phi theta psi,
  (phi = 0 /\ theta <> 0 /\ psi <> 0) \/ (theta = 0 /\ phi <> 0 /\ psi <> 0) \/ (psi = 0 /\ phi <> 0 /\ theta <> 0) ->
  norm (V3 phi theta psi) < 2 * PI -> ~ same_rotation (euler_rotation phi theta psi) (wrong_rotation phi theta psi).
Proof. exact euler_two. Qed.
Print Assumptions c70_two_angles.
Example c70_two_angles_example : (0 = 0 /\ (3 : R) <> 0 /\ (4 : R) <> 0) /\ norm (V3 0 3 4) < 2 * PI.
Proof.
  split; [repeat split; lra|]. unfold norm, norm2, dot. cbn. replace (0 * 0 + 3 * 3 + 4 * 4) with (5 * 5) by ring. rewrite sqrt_square by lra.
  pose proof PI2_3_2. lra.
Qed.
(** The comment of the example says that they agree only if two of the angles are zero. *)
Theorem c70_angles_refuted : exists phi theta psi, phi <> 0 /\ theta <> 0 /\ psi <> 0 /\
  same_rotation (euler_rotation phi theta psi) (wrong_rotation phi theta psi).
Proof. exists (2 * PI), (4 * PI), (4 * PI). pose proof PI_RGT_0. repeat (split; [lra|]). exact euler_three. Qed.
Print Assumptions c70_angles_refuted.
