(** Proofs about the examples of the robot and of the drone. *)
From Coq Require Import Lra Lia Sorted.
From Flocq Require Import Core.
From Verif Require Import Cpp UuidModel RotSpec GeomModel DerivSpec FrameSpec FrameProofs LieSpec LieProofs RotProofs JetModel JetSpec JetLaws CurveModel CurveSpec
  DCurveSpec TimeModel FloatModel FloatSpec FloatProofs StateModel StateSpec StateProofs TrajProofs ExamModel ExamSpec ExamProofs BankModel BankSpec.
Local Open Scope R_scope.

(** ** Robot and sensor *)
Lemma yaw_quarter : yaw (PI / 2) = M3 0 (-1) 0 1 0 0 0 0 1.
Proof. unfold yaw. rewrite cos_PI2, sin_PI2. f_equal; ring. Qed.
Lemma yaw_half : yaw PI = M3 (-1) 0 0 0 (-1) 0 0 0 1.
Proof. unfold yaw. rewrite cos_PI, sin_PI. f_equal; ring. Qed.
Lemma posed_exact m v i f g : rotation_matrix (rotation g) = m -> translation g = v -> se3_into g = i -> se3_from g = f -> posed 0 m v i f g.
Proof.
  intros R T I F. split; [exact R|]. split; [|split; assumption]. unfold position. rewrite T.
  replace (vsub v v) with vzero by (symmetry; vring). unfold norm, norm2, dot, vzero. cbn. replace (0 * 0 + 0 * 0 + 0 * 0) with 0 by ring. rewrite sqrt_0. lra.
Qed.
Lemma rigid_ok : exists g, rigid_transform = Ok g /\ posed 0 (yaw (PI / 2)) (V3 1 0 1) null_frame null_frame g.
Proof. eexists. split; [reflexivity|]. apply posed_exact; try reflexivity. cbn. exact (turn_yaw (PI / 2)). Qed.
Lemma make_frames_ok i f : i <> null_frame -> f <> null_frame -> make_frames (Some (i, f)) = Ok (i, f).
Proof. intros I F. cbn. rewrite !frame_is_null_neq by assumption. reflexivity. Qed.
Lemma composition_ok w r s : w <> null_frame -> r <> null_frame -> s <> null_frame ->
  exists e, framed_composition w r s = Ok e /\
    posed 0 (yaw (PI / 2)) (V3 1 0 1) w r (world_from_robot e) /\ posed 0 mid (V3 (1 / 10) 0 (1 / 10)) r s (robot_from_sensor e) /\
    posed 0 (yaw (PI / 2)) (V3 1 (1 / 10) (11 / 10)) w s (world_from_sensor e) /\
    (r <> s -> bad_world_from_sensor e = Throw) /\ (r = s -> exists g, bad_world_from_sensor e = Ok g).
Proof.
  intros W R S. unfold framed_composition, so3_of_angle_axis, se3_make, se3_of_translation, so3_identity, so3_of_matrix.
  cbn [make_frames obind]. rewrite (frame_is_null_neq w W), (frame_is_null_neq r R), (frame_is_null_neq s S). cbn [Bool.eqb reassert obind].
  unfold se3_mul, so3_mul. cbn [rotation translation se3_into se3_from so3_set_unframed rotation_matrix so3_into so3_from].
  unfold so3_is_framed, se3_is_framed. cbn [so3_into se3_into so3_set_unframed]. rewrite !frame_is_null_null, (frame_is_null_neq w W), (frame_is_null_neq r R).
  cbn [negb orb]. unfold so3_of_matrix, se3_make. cbn [make_frames obind]. rewrite frame_eqb_refl. cbn [reassert obind].
  rewrite (frame_is_null_neq w W), (frame_is_null_neq s S). cbn [Bool.eqb reassert obind].
  eexists. split; [reflexivity|]. cbn [world_from_robot robot_from_sensor world_from_sensor bad_world_from_sensor].
  split; [apply posed_exact; try reflexivity; exact (turn_yaw (PI / 2))|].
  split; [apply posed_exact; reflexivity|].
  split.
  { apply posed_exact; try reflexivity; cbn [rotation translation rotation_matrix so3_set_unframed so3_act].
    - change (V3 0 0 1) with unit_z. rewrite turn_yaw, yaw_quarter. vring.
    - unfold so3_act. cbn [rotation_matrix so3_set_unframed]. change (V3 0 0 1) with unit_z. rewrite turn_yaw, yaw_quarter. unfold mvec, vadd. cbn. f_equal; field. }
  unfold se3_inverse, so3_inverse, se3_make, so3_of_matrix. cbn [rotation rotation_matrix so3_into so3_from se3_into se3_from].
  cbn [make_frames]. rewrite ?frame_is_null_null, ?(frame_is_null_neq r R), ?(frame_is_null_neq s S). cbn [Bool.eqb reassert obind].
  cbn [so3_set_unframed rotation so3_into so3_from rotation_matrix se3_into]. rewrite ?frame_is_null_null, ?(frame_is_null_neq s S). cbn [negb orb obind].
  split; [intro N; rewrite (frame_eqb_neq r s N); reflexivity|]. intros <-. rewrite frame_eqb_refl. cbn [reassert obind se3_from make_frames].
  rewrite ?(frame_is_null_neq w W), ?(frame_is_null_neq r R). cbn [Bool.eqb reassert obind]. eexists. reflexivity.
Qed.

(** ** The drone *)
Lemma at_rest_turn (s : rigid_state) v r : 0 < v -> 0 < r -> linear_velocity s = V3 v 0 0 -> angular_velocity s = V3 0 (- sqrt (v / r)) 0 ->
  forall q, at_rest s q <-> vx q = 0 /\ vz q = sqrt (v * r).
Proof.
  intros V P L A [x y z]. unfold at_rest. rewrite L, A. unfold vadd, cross, vzero. cbn [vx vy vz].
  assert (Q : 0 < sqrt (v / r)) by (apply sqrt_lt_R0, Rdiv_lt_0_compat; assumption).
  assert (M : sqrt (v / r) * sqrt (v * r) = v).
  { rewrite <- sqrt_mult; [|apply Rlt_le, Rdiv_lt_0_compat; assumption|nra]. replace (v / r * (v * r)) with (v * v) by (field; lra). apply sqrt_square. lra. }
  split.
  - intro H. injection H as H1 H2 H3. split; nra.
  - intros [-> ->]. f_equal; nra.
Qed.
Lemma turn_radius (s : rigid_state) v r : 0 < v -> 0 < r -> linear_velocity s = V3 v 0 0 -> angular_velocity s = V3 0 (- sqrt (v / r)) 0 ->
  forall d, turning_radius s d <-> d = sqrt (v * r).
Proof.
  intros V P L A. pose proof (at_rest_turn s v r V P L A) as H. set (k := sqrt (v * r)) in *.
  assert (K : 0 < k) by (apply sqrt_lt_R0; nra).
  assert (T : turning_radius s k).
  { split.
    - exists (V3 0 0 k). split; [apply H; cbn; tauto|]. unfold norm, norm2, dot. cbn. replace (0 * 0 + 0 * 0 + k * k) with (k * k) by ring. apply sqrt_square. lra.
    - intros [x y z] Q. apply H in Q as [X Z]. cbn [vx vy vz] in X, Z. unfold norm, norm2, dot. cbn. rewrite X, Z.
      apply Rle_trans with (sqrt (k * k)); [rewrite sqrt_square; lra|]. apply sqrt_le_1; nra. }
  intro d. split; [|intros ->; exact T]. intros [(q & Q & <-) M]. destruct T as [(q' & Q' & E') M']. apply Rle_antisym; [rewrite <- E'; apply M, Q'|apply M', Q].
Qed.

Definition drone_1 : mat3 := M3 0 0 (-1) 1 0 0 0 (-1) 0.
Definition drone_pose (i f : frame) (m : mat3) (p : vec3) : se3 := SE3 (unframed m) p i f.
Definition drone_state (i f : frame) (m : mat3) (p v w : vec3) : rigid_state := RigidState (JetR (drone_pose i f m p) (T6 w v) (T6 vzero vzero)).
Definition drone_points (i f : frame) : list tpoint :=
  [TPoint 0 (drone_state i f mid waypoint_0 (V3 5 0 0) vzero);
   TPoint 16500000000 (drone_state i f drone_1 waypoint_1 (V3 7 0 0) (V3 0 (- turn_ang_v_radps) 0));
   TPoint 33000000000 (drone_state i f (yaw PI) waypoint_2 (V3 5 0 0) vzero)].
Lemma as_duration_int (t : R) (n : Z) : t * IZR NANO = IZR n -> (Z.abs n <= 2 ^ 53)%Z -> real_as_duration t = Ok n.
Proof.
  intros E B. unfold real_as_duration. rewrite E, (rd_int n B), Ztrunc_IZR. apply chk64_ok. unfold in64, INT64_MIN, INT64_MAX. lia.
Qed.

Lemma times_ok : timestamps = Ok [0; 16500000000; 33000000000]%Z.
Proof.
  unfold timestamps, default_times, push_each.
  rewrite (as_duration_int 0 0), (as_duration_int (33 / 2) 16500000000), (as_duration_int 33 33000000000); [reflexivity|try lia; unfold NANO; lra..].
Qed.
Lemma rolled_ok : mmul (mexp (vscale (PI / 2) unit_z)) (mexp (vscale (- (PI / 2)) unit_x)) = drone_1.
Proof.
  rewrite mexp_z, yaw_quarter, mexp_unit by (unfold unit_vec, unit_x, norm2, dot; cbn; ring).
  unfold angle_axis_matrix. rewrite cos_neg, sin_neg, cos_PI2, sin_PI2. unfold unit_x, drone_1. vring.
Qed.
Lemma banked_is i f : i <> null_frame -> f <> null_frame -> out_and_back_banked i f = tr_make (drone_points i f).
Proof.
  intros I F. unfold out_and_back_banked, so3_identity, so3_exp, so3_of_angle_axis, so3_of_matrix, se3_make. cbn [make_frames obind].
  rewrite !frame_is_null_neq by assumption. cbn [Bool.eqb reassert obind].
  rewrite times_ok. cbn [obind time_at nth_error]. unfold so3_mul, so3_of_matrix, so3_is_framed. cbn [so3_from so3_into rotation_matrix]. rewrite ?frame_is_null_null.
  cbn [negb orb make_frames obind]. fold (mexp (vscale (PI / 2) unit_z)). fold (mexp (vscale (- (PI / 2)) unit_x)). fold (mexp (vscale PI unit_z)).
  rewrite rolled_ok, mexp_z. reflexivity.
Qed.
Lemma drone_1_rot : is_rotation drone_1.
Proof. rewrite <- rolled_ok. apply rot_mmul; apply mexp_rot. Qed.
Lemma drone_wf i f : i <> null_frame -> f <> null_frame -> Forall (fun p => state_wf (state p)) (drone_points i f).
Proof.
  intros I F. unfold drone_points.
  assert (W : forall m p v w, is_rotation m -> state_wf (drone_state i f m p v w)).
  { intros m p v w M. unfold state_wf, ref_from_body, drone_state. cbn. split; [exact M|]. unfold se3_framing. cbn. split; [unfold frames_ok; tauto|split; reflexivity]. }
  repeat (apply Forall_cons; [apply W|]); [exact rot_mid|exact drone_1_rot|apply yaw_rot|apply Forall_nil].
Qed.
(** A rotation by less than a milliradian has a trace near three. *)
Lemma trace_angle m : is_rotation m -> m00 m + m11 m + m22 m = 1 + 2 * cos (norm (matrix_log m)).
Proof.
  intro M. destruct (vec3_polar (matrix_log m)) as (q & U & E).
  assert (K : m = angle_axis_matrix (norm (matrix_log m)) q) by (rewrite <- (mexp_unit _ q U), <- E, mexp_mlog by exact M; reflexivity).
  revert K. generalize (norm (matrix_log m)). intros n ->. destruct q as [x y z]. unfold unit_vec, norm2, dot in U. cbn [vx vy vz] in U.
  unfold angle_axis_matrix. vsimpl. replace (1 + 2 * cos n) with ((1 - cos n) * (x * x + y * y + z * z) + 3 * cos n) by (rewrite U; ring). ring.
Qed.
Lemma wide_plain m : is_rotation m -> m00 m + m11 m + m22 m = 0 -> plain_angle (norm2 (matrix_log m)).
Proof.
  intros M T. right. rewrite (trace_angle m M) in T. set (v := matrix_log m) in *.
  destruct (Rle_lt_dec TINY_SQUARE_ANGLE (norm2 v)) as [H|H]; [exact H|]. exfalso.
  assert (N : norm v * norm v = norm2 v) by (unfold norm; apply sqrt_sqrt; unfold norm2, dot; nra).
  pose proof (norm_nonneg v) as P. unfold TINY_SQUARE_ANGLE in H.
  assert (B : norm v < PI / 2) by (pose proof PI2_1; nra).
  pose proof (cos_gt_0 (norm v)) as C. lra.
Qed.
Lemma change_is i f m1 p1 v1 w1 m2 p2 v2 w2 x y g : i <> null_frame -> f <> null_frame ->
  pose_change (TPoint x (drone_state i f m1 p1 v1 w1)) (TPoint y (drone_state i f m2 p2 v2 w2)) g ->
  rotation_matrix (rotation g) = mmul (mtrans m2) m1.
Proof.
  intros I F (b & B & M). revert B M. unfold se3_inverse, so3_inverse, so3_of_matrix, se3_make. cbn [state ref_from_body drone_state ref_from_body_two_jet ref_from_frame drone_pose rotation unframed so3_from so3_into rotation_matrix se3_from se3_into translation make_frames].
  rewrite ?frame_is_null_null, ?(frame_is_null_neq i I), ?(frame_is_null_neq f F). cbn [Bool.eqb reassert obind]. intro B. injection B as <-.
  unfold se3_mul. set (q := so3_mul _ _). assert (Q : q = Ok (SO3 (mmul (mtrans m2) m1) null_frame null_frame)) by reflexivity. rewrite Q. clear Q q. cbn [obind].
  unfold se3_make, se3_is_framed. cbn [se3_into se3_from state ref_from_body drone_state ref_from_body_two_jet ref_from_frame drone_pose make_frames].
  rewrite !(frame_is_null_neq i I), !(frame_is_null_neq f F), frame_eqb_refl. cbn [negb orb Bool.eqb reassert obind]. intro E. injection E as <-. reflexivity.
Qed.
Lemma drone_exact i f : i <> null_frame -> f <> null_frame -> exact_changes (drone_points i f).
Proof.
  intros I F l a b r g E C.
  assert (K : (a = nth 0 (drone_points i f) (TPoint 0 rs_default) /\ b = nth 1 (drone_points i f) (TPoint 0 rs_default)) \/ (a = nth 1 (drone_points i f) (TPoint 0 rs_default) /\ b = nth 2 (drone_points i f) (TPoint 0 rs_default))).
  { rewrite E. destruct l as [|c [|d l]].
    - left. split; reflexivity.
    - right. split; reflexivity.
    - exfalso. apply (f_equal (@length tpoint)) in E. cbn in E. rewrite app_length in E. cbn in E. lia. }
  assert (W : is_rotation (rotation_matrix (rotation g)) /\ m00 (rotation_matrix (rotation g)) + m11 (rotation_matrix (rotation g)) + m22 (rotation_matrix (rotation g)) = 0).
  { destruct K as [[-> ->]|[-> ->]]; cbn [nth drone_points] in C; rewrite (change_is _ _ _ _ _ _ _ _ _ _ _ _ _ I F C).
    - split; [apply rot_mmul; [apply rot_mtrans, drone_1_rot|exact rot_mid]|]. unfold drone_1. vsimpl. ring.
    - split; [apply rot_mmul; [apply rot_mtrans, yaw_rot|exact drone_1_rot]|]. rewrite yaw_half. unfold drone_1. vsimpl. ring. }
  destruct W as [W T]. cbn [trot se3_log]. apply wide_plain; assumption.
Qed.
Lemma drone_end : as_duration (as_seconds 33000000000) = Ok 33000000000%Z.
Proof. vm_compute. reflexivity. Qed.
Lemma drone_taken i f : i <> null_frame -> f <> null_frame -> tr_takes (drone_points i f) (drone_points i f).
Proof.
  intros I F. apply precise_taken.
  - unfold drone_points. repeat constructor.
  - intros a b Ia Ib. unfold drone_points in Ia, Ib.
    destruct Ia as [<-|[<-|[<-|[]]]]; destruct Ib as [<-|[<-|[<-|[]]]]; split; reflexivity.
  - intros a p H Ip. injection H as <-. unfold PRECISE. destruct Ip as [<-|[<-|[<-|[]]]]; cbn [at_time]; lia.
Qed.
Lemma flight i f : i <> null_frame -> f <> null_frame -> exists t, out_and_back_banked i f = Ok t /\
  tr_start_time t = 0%Z /\ tr_end_time t = Ok 33000000000%Z /\ tr_reference_frame t = Ok i /\ tr_body_frame t = Ok f /\
  (forall x, in64 x -> ((0 <= x <= 33000000000)%Z -> exists s, tr_point_at t x = Ok s /\ state_wf s /\ se3_into (ref_from_body s) = i /\ se3_from (ref_from_body s) = f) /\
    (~ (0 <= x <= 33000000000)%Z -> tr_point_at t x = Throw)) /\
  passes t 0 (V3 0 (-3) 0) (V3 5 0 0) vzero (V3 0 0 1) /\
  passes t 16500000000 (V3 8 0 0) (V3 0 7 0) (V3 0 0 (sqrt (7 / 150))) (V3 (-1) 0 0) /\
  passes t 33000000000 (V3 0 3 0) (V3 (-5) 0 0) vzero (V3 0 0 1) /\
  exists s, tr_point_at t 16500000000 = Ok s /\ linear_velocity s = V3 7 0 0 /\ angular_velocity s = V3 0 (- sqrt (7 / 150)) 0.
Proof.
  intros I F. rewrite (banked_is i f I F). pose proof (drone_taken i f I F) as T.
  destruct (make_whole _ (drone_wf i f I F) T) as (t & E & C). exists t. split; [exact E|].
  assert (S : tr_start_time t = 0%Z) by exact (proj1 C _ eq_refl). split; [exact S|].
  assert (L : drone_points i f = nth 0 (drone_points i f) (TPoint 0 rs_default) :: [nth 1 (drone_points i f) (TPoint 0 rs_default)] ++ [nth 2 (drone_points i f) (TPoint 0 rs_default)]) by reflexivity.
  split.
  { destruct (end_spec t [nth 0 (drone_points i f) (TPoint 0 rs_default); nth 1 (drone_points i f) (TPoint 0 rs_default)] (nth 2 (drone_points i f) (TPoint 0 rs_default)) C) as [_ X].
    - rewrite S. cbn. unfold in64, INT64_MIN, INT64_MAX. lia.
    - rewrite X, S. change (at_time (nth 2 (drone_points i f) (TPoint 0 rs_default)) - 0)%Z with 33000000000%Z. rewrite drone_end. reflexivity. }
  destruct (frames_of t _ (nth 0 (drone_points i f) (TPoint 0 rs_default)) C (or_introl eq_refl)) as [Q1 Q2].
  split; [exact Q1|]. split; [exact Q2|].
  assert (Bnd : forall x, in64 x -> (within 0 (drone_points i f) x <-> (0 <= x <= 33000000000)%Z)).
  { intros x X.
    assert (P : within 0 (drone_points i f) x <-> 0 <= secs_of x <= secs_of 33000000000).
    { rewrite <- (proj2 (as_seconds_val x X)), <- (proj2 (as_seconds_val 33000000000 ltac:(unfold in64, INT64_MIN, INT64_MAX; lia))). split.
      - intros (a & l & b & W & Y). rewrite Z.sub_0_r in Y. rewrite L in W. injection W as <- W. apply (app_inj_tail [_] l) in W as [_ <-]. exact Y.
      - intro Y. eexists _, _, _. split; [exact L|]. rewrite Z.sub_0_r. exact Y. }
    rewrite P. assert (Z0 : secs_of 0 = 0) by (unfold secs_of; rewrite (rd_int 0) by lia; unfold Rdiv; rewrite Rmult_0_l; apply (rd_int 0); lia).
    split.
    - intros [Y1 Y2]. split; apply Z.nlt_ge; intro H.
      + pose proof (secs_mono x (-1) ltac:(lia)). pose proof (secs_strict (-1) 0 ltac:(unfold DAYS97; lia) ltac:(unfold DAYS97; lia) ltac:(lia)). lra.
      + pose proof (secs_mono 33000000001 x ltac:(lia)).
        pose proof (secs_strict 33000000000 33000000001 ltac:(unfold DAYS97; lia) ltac:(unfold DAYS97; lia) ltac:(lia)). lra.
    - intros [Y1 Y2]. split; [rewrite <- Z0|]; apply secs_mono; assumption. }
  split.
  { intros x X. assert (D : in64 (x - tr_start_time t)) by (rewrite S, Z.sub_0_r; exact X).
    destruct (point_at_ok _ t _ x T C D) as [H1 H2]. rewrite S in H1, H2. split.
    - intro B. destruct (H1 (proj2 (Bnd x X) B)) as (s & Es & Ws & Fs). exists s. split; [exact Es|]. split; [exact Ws|].
      exact (Fs _ (or_introl eq_refl)).
    - intro N. apply H2. intro W. apply N, (Bnd x X), W. }
  pose proof (fun p => control_states _ t _ p T C (drone_exact i f I F) ltac:(cbn; lia)) as K.
  assert (Y : sqrt (7 / 150) = turn_ang_v_radps) by reflexivity.
  split; [|split; [|split]].
  - eexists. split; [exact (K _ (or_introl eq_refl))|]. cbn. split; [reflexivity|]. unfold se3_rotate, so3_act. cbn. repeat split; vring.
  - eexists. split; [exact (K _ (or_intror (or_introl eq_refl)))|]. cbn. split; [reflexivity|]. rewrite Y. unfold se3_rotate, so3_act. cbn. repeat split; unfold drone_1; vring.
  - eexists. split; [exact (K _ (or_intror (or_intror (or_introl eq_refl))))|]. cbn. split; [reflexivity|]. unfold se3_rotate, so3_act. cbn. rewrite yaw_half. repeat split; vring.
  - eexists. split; [exact (K _ (or_intror (or_introl eq_refl)))|]. split; reflexivity.
Qed.
