(** Approximate equality: C56. *)
From Verif Require Import Cpp UuidModel RotSpec GeomModel FrameSpec LieSpec JetModel ApproxModel ApproxSpec ApproxProofs.
Local Open Scope R_scope.

(** ** C56 *)
Theorem c56_rotations_by_angle : forall a b, so3_wf a -> so3_wf b ->
  (exists t, turn_apart a b t) /\
  forall t, turn_apart a b t ->
    (so3_is_approx_transform a b = true <-> 8 * (sin (t / 2))^2 <= 3 * / 10^24) /\
    (so3_is_approx a b = true <->
       so3_into a = so3_into b /\ so3_from a = so3_from b /\ 8 * (sin (t / 2))^2 <= 3 * / 10^24).
Proof. exact so3_approx_angle. Qed.
Print Assumptions c56_rotations_by_angle.

Theorem c56_angle_threshold : forall a b t, so3_wf a -> so3_wf b -> turn_apart a b t ->
  (t <= 12 / 10 * precision -> so3_is_approx_transform a b = true) /\
  (13 / 10 * precision <= t -> so3_is_approx_transform a b = false).
Proof. exact so3_approx_threshold. Qed.
Print Assumptions c56_angle_threshold.

Theorem c56_rotations_invariant : forall a b c, so3_wf a -> so3_wf b -> so3_wf c ->
  (forall ca cb, so3_mul c a = Ok ca -> so3_mul c b = Ok cb ->
     so3_is_approx_transform ca cb = so3_is_approx_transform a b) /\
  (forall ac bc, so3_mul a c = Ok ac -> so3_mul b c = Ok bc ->
     so3_is_approx_transform ac bc = so3_is_approx_transform a b) /\
  (forall ai bi, so3_inverse a = Ok ai -> so3_inverse b = Ok bi ->
     so3_is_approx_transform ai bi = so3_is_approx_transform a b).
Proof. exact so3_approx_invariant. Qed.
Print Assumptions c56_rotations_invariant.

Theorem c56_reflexive_symmetric :
  (forall a, so3_is_approx a a = true) /\ (forall a b, so3_is_approx a b = so3_is_approx b a) /\
  (forall a, se3_is_approx a a = true) /\ (forall a b, se3_is_approx a b = se3_is_approx b a) /\
  (forall a, jl_is_approx_so3 a a = true) /\ (forall a b, jl_is_approx_so3 a b = jl_is_approx_so3 b a) /\
  (forall a, jl_is_approx_se3 a a = true) /\ (forall a b, jl_is_approx_se3 a b = jl_is_approx_se3 b a) /\
  (forall a, jr_is_approx_so3 a a = true) /\ (forall a b, jr_is_approx_so3 a b = jr_is_approx_so3 b a) /\
  (forall a, jr_is_approx_se3 a a = true) /\ (forall a b, jr_is_approx_se3 a b = jr_is_approx_se3 b a).
Proof. exact approx_refl_sym. Qed.
Print Assumptions c56_reflexive_symmetric.

(** Full statement: approximate equality is transitive.  False. *)
Theorem c56_transitive_refuted : exists a b c, so3_wf a /\ so3_wf b /\ so3_wf c /\
  so3_is_approx a b = true /\ so3_is_approx b c = true /\ so3_is_approx a c = false.
Proof. exact so3_transitive_refuted. Qed.
Print Assumptions c56_transitive_refuted.

Theorem c56_poses : forall a b, se3_framing a -> se3_framing b ->
  (se3_is_approx_transform a b = true <->
     so3_is_approx_transform (rotation a) (rotation b) = true /\
     relatively_close (translation a) (translation b)) /\
  (se3_is_approx a b = true <->
     se3_into a = se3_into b /\ se3_from a = se3_from b /\ se3_is_approx_transform a b = true).
Proof. exact se3_approx_ignores_frames. Qed.
Print Assumptions c56_poses.

(** Two-jets: their rotations or poses compare equal and so do, in relation to their lengths,
    both derivatives. *)
Theorem c56_jets :
  (forall a b, jl_is_approx_so3 a b = true <-> so3_is_approx (frame_from_ref a) (frame_from_ref b) = true /\ relatively_close (d_frame_from_ref a) (d_frame_from_ref b) /\ relatively_close (d2_frame_from_ref a) (d2_frame_from_ref b)) /\
  (forall a b, jr_is_approx_so3 a b = true <-> so3_is_approx (ref_from_frame a) (ref_from_frame b) = true /\ relatively_close (d_ref_from_frame a) (d_ref_from_frame b) /\ relatively_close (d2_ref_from_frame a) (d2_ref_from_frame b)) /\
  (forall a b, jl_is_approx_se3 a b = true <-> se3_is_approx (frame_from_ref a) (frame_from_ref b) = true /\ tangent_relatively_close (d_frame_from_ref a) (d_frame_from_ref b) /\ tangent_relatively_close (d2_frame_from_ref a) (d2_frame_from_ref b)) /\
  (forall a b, jr_is_approx_se3 a b = true <-> se3_is_approx (ref_from_frame a) (ref_from_frame b) = true /\ tangent_relatively_close (d_ref_from_frame a) (d_ref_from_frame b) /\ tangent_relatively_close (d2_ref_from_frame a) (d2_ref_from_frame b)).
Proof. exact jets_approx. Qed.
Print Assumptions c56_jets.

Theorem c56_zero_only_to_zero : forall a b, se3_is_approx a b = true ->
  (translation a = vzero <-> translation b = vzero).
Proof. exact se3_approx_zero. Qed.
Print Assumptions c56_zero_only_to_zero.

Theorem c56_left_jet_zero_only_to_zero : forall a b, jl_is_approx_se3 a b = true ->
  (translation (frame_from_ref a) = vzero <-> translation (frame_from_ref b) = vzero) /\
  (d_frame_from_ref a = tzero <-> d_frame_from_ref b = tzero) /\
  (d2_frame_from_ref a = tzero <-> d2_frame_from_ref b = tzero).
Proof. exact jet_approx_zero. Qed.
Print Assumptions c56_left_jet_zero_only_to_zero.

Theorem c56_right_jet_zero_only_to_zero : forall a b, jr_is_approx_se3 a b = true ->
  (translation (ref_from_frame a) = vzero <-> translation (ref_from_frame b) = vzero) /\
  (d_ref_from_frame a = tzero <-> d_ref_from_frame b = tzero) /\
  (d2_ref_from_frame a = tzero <-> d2_ref_from_frame b = tzero).
Proof. exact jet_r_approx_zero. Qed.
Print Assumptions c56_right_jet_zero_only_to_zero.

(** Full statement: poses that agree in rotation and frames and whose origins are close
    enough compare equal.  False for every tolerance. *)
Theorem c56_some_tolerance_refuted : forall eps, 0 < eps -> exists a b, se3_wf a /\ se3_wf b /\
  rotation a = rotation b /\ se3_into a = se3_into b /\ se3_from a = se3_from b /\
  distance (translation a) (translation b) < eps /\ se3_is_approx a b = false.
Proof. exact se3_tolerance_refuted. Qed.
Print Assumptions c56_some_tolerance_refuted.

(** Full statement: poses that compare equal lie within some fixed distance.  False. *)
Theorem c56_bounded_distance_refuted : forall d, 0 < d -> exists a b, se3_wf a /\ se3_wf b /\
  distance (translation a) (translation b) = d /\ se3_is_approx a b = true.
Proof. exact se3_approx_far. Qed.
Print Assumptions c56_bounded_distance_refuted.

(** Full statement: composing both sides with the same pose does not change the answer.
    False for poses. *)
Theorem c56_pose_invariance_refuted : exists c a b ca cb, se3_wf a /\ se3_wf b /\ se3_wf c /\
  se3_mul c a = Ok ca /\ se3_mul c b = Ok cb /\ se3_is_approx a b = true /\ se3_is_approx ca cb = false.
Proof. exact se3_invariance_refuted. Qed.
Print Assumptions c56_pose_invariance_refuted.

(** Two turns about z with the same frames, one radian apart, are told apart; the zero
    derivative is not approximately a derivative of 1e-300. *)
Example c56_example :
  so3_wf (z_turn 1) /\ so3_wf (z_turn 2) /\ turn_apart (z_turn 1) (z_turn 2) (2 - 1) /\
  so3_is_approx_transform (z_turn 1) (z_turn 2) = false /\
  tan_is_approx tzero (T6 (V3 (/ 10^300) 0 0) vzero) = false.
Proof.
  assert (P : 3 < PI) by (pose proof PI2_3_2; lra).
  split; [apply z_turn_wf|]. split; [apply z_turn_wf|].
  assert (A : turn_apart (z_turn 1) (z_turn 2) (2 - 1)) by (apply z_turn_apart; lra).
  split; [exact A|]. split.
  - apply (so3_approx_threshold _ _ _ (z_turn_wf 1) (z_turn_wf 2) A). unfold precision. lra.
  - destruct (tan_is_approx _ _) eqn:E; [|reflexivity].
    apply tan_approx_zero in E. pose proof (proj1 E eq_refl) as Z. injection Z as Z.
    pose proof (Rinv_0_lt_compat (10^300)). assert (0 < 10^300) by (apply pow_lt; lra). lra.
Qed.
