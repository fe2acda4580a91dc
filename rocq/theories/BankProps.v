(** C86: what the examples of the robot with a sensor and of the drone show. *)
From Coq Require Import Lra Lia.
From Verif Require Import Cpp UuidModel RotSpec GeomModel RotProofs FrameSpec FrameProofs LieSpec StateModel StateSpec TimeModel ExamModel ExamSpec BankModel BankSpec BankProofs.
Local Open Scope R_scope.

(** ** Robot and sensor *)
Theorem c86_rigid : exists g, rigid_transform = Ok g /\ posed 0 (yaw (PI / 2)) (V3 1 0 1) null_frame null_frame g.
Proof. exact rigid_ok. Qed.
Print Assumptions c86_rigid.
(** The sensor is where the composed transform puts it, and the composition that the
    example calls invalid throws, unless the two frames happen to be the same. *)
Theorem c86_composition : forall w r s, w <> null_frame -> r <> null_frame -> s <> null_frame ->
  exists e, framed_composition w r s = Ok e /\
    posed 0 (yaw (PI / 2)) (V3 1 0 1) w r (world_from_robot e) /\ posed 0 mid (V3 (1 / 10) 0 (1 / 10)) r s (robot_from_sensor e) /\
    posed 0 (yaw (PI / 2)) (V3 1 (1 / 10) (11 / 10)) w s (world_from_sensor e) /\
    (r <> s -> bad_world_from_sensor e = Throw) /\ (r = s -> exists g, bad_world_from_sensor e = Ok g).
Proof. exact composition_ok. Qed.
Print Assumptions c86_composition.
Definition bk_world : frame := repeat 1%N 16.
Definition bk_robot : frame := repeat 2%N 16.
Definition bk_sensor : frame := repeat 3%N 16.
Example c86_frames_case : bk_world <> null_frame /\ bk_robot <> null_frame /\ bk_sensor <> null_frame /\ bk_robot <> bk_sensor.
Proof. repeat split; discriminate. Qed.

(** ** The drone *)
(** The trajectory starts at the epoch, ends 33 seconds later, can be asked for every time
    between and no other, and passes the three waypoints: eastward at 5 m/s, then northward
    at 7 m/s, turning left with the top of the body pointing to the centre of the bend,
    then westward at 5 m/s. *)
Theorem c86_flight : forall i f, i <> null_frame -> f <> null_frame -> exists t, out_and_back_banked i f = Ok t /\
  tr_start_time t = 0%Z /\ tr_end_time t = Ok 33000000000%Z /\ tr_reference_frame t = Ok i /\ tr_body_frame t = Ok f /\
  (forall x, in64 x -> ((0 <= x <= 33000000000)%Z -> exists s, tr_point_at t x = Ok s /\ state_wf s /\ se3_into (ref_from_body s) = i /\ se3_from (ref_from_body s) = f) /\
    (~ (0 <= x <= 33000000000)%Z -> tr_point_at t x = Throw)) /\
  passes t 0 (V3 0 (-3) 0) (V3 5 0 0) vzero (V3 0 0 1) /\
  passes t 16500000000 (V3 8 0 0) (V3 0 7 0) (V3 0 0 (sqrt (7 / 150))) (V3 (-1) 0 0) /\
  passes t 33000000000 (V3 0 3 0) (V3 (-5) 0 0) vzero (V3 0 0 1).
Proof.
  intros i f I F. destruct (flight i f I F) as (t & H1 & H2 & H3 & H4 & H5 & H6 & H7 & H8 & H9 & _). exists t. repeat (split; [assumption|]). assumption.
Qed.
Print Assumptions c86_flight.
(** The comment says that it returns to its start location: it ends six metres away. *)
Theorem c86_return_refuted : exists t a b, out_and_back_banked bk_world bk_robot = Ok t /\ tr_end_time t = Ok 33000000000%Z /\
  tr_point_at t (tr_start_time t) = Ok a /\ tr_point_at t 33000000000 = Ok b /\
  norm (vsub (translation (ref_from_body b)) (translation (ref_from_body a))) = 6.
Proof.
  destruct c86_frames_case as (I & F & _).
  destruct (c86_flight _ _ I F) as (t & E & S & En & _ & _ & _ & (a & A & Pa & _) & _ & (b & B & Pb & _)).
  exists t, a, b. rewrite S. split; [exact E|]. split; [exact En|]. split; [exact A|]. split; [exact B|]. rewrite Pa, Pb. unfold norm, norm2, dot. cbn.
  replace ((0 - 0) * (0 - 0) + (3 - -3) * (3 - -3) + (0 - 0) * (0 - 0)) with (6 * 6) by ring. apply sqrt_square. lra.
Qed.
Print Assumptions c86_return_refuted.

(** A body that moves along its x axis with the speed [v] and turns about its y axis at the
    rate sqrt (v / r) turns about an axis at the distance sqrt (v r), whatever [v] and [r]. *)
Theorem c86_turn : forall s v r, 0 < v -> 0 < r -> linear_velocity s = V3 v 0 0 -> angular_velocity s = V3 0 (- sqrt (v / r)) 0 ->
  forall d, turning_radius s d <-> d = sqrt (v * r).
Proof. exact turn_radius. Qed.
Print Assumptions c86_turn.
(** So the drone, for which the example intends a radius of 150 metres, turns with less than
    33 metres. *)
Theorem c86_bend : forall i f, i <> null_frame -> f <> null_frame -> exists t s, out_and_back_banked i f = Ok t /\ tr_point_at t 16500000000 = Ok s /\
  exists d, turning_radius s d /\ 32 < d < 33.
Proof.
  intros i f I F. destruct (flight i f I F) as (t & E & _ & _ & _ & _ & _ & _ & _ & _ & s & S & L & A). exists t, s. split; [exact E|]. split; [exact S|].
  exists (sqrt (7 * 150)). split; [apply (turn_radius s 7 150); [lra|lra|exact L|exact A|reflexivity]|].
  split; [rewrite <- (sqrt_square 32) by lra|rewrite <- (sqrt_square 33) by lra]; apply sqrt_lt_1; lra.
Qed.
Print Assumptions c86_bend.
Theorem c86_radius_refuted : exists t s, out_and_back_banked bk_world bk_robot = Ok t /\ tr_point_at t 16500000000 = Ok s /\ ~ turning_radius s turn_r_m.
Proof.
  destruct c86_frames_case as (I & F & _). destruct (c86_bend _ _ I F) as (t & s & E & S & d & [(q & Q & N) _] & D).
  exists t, s. split; [exact E|]. split; [exact S|]. intros [_ T]. pose proof (T q Q). unfold turn_r_m in *. lra.
Qed.
Print Assumptions c86_radius_refuted.
Example c86_turn_case : exists s, linear_velocity s = V3 7 0 0 /\ angular_velocity s = V3 0 (- sqrt (7 / 150)) 0.
Proof.
  destruct c86_frames_case as (I & F & _). destruct (flight _ _ I F) as (t & _ & _ & _ & _ & _ & _ & _ & _ & _ & s & _ & L & A). exists s. split; assumption.
Qed.
