(** SO3 and SE3 as groups; exponential, logarithm, adjoints, interpolation, distances: C18-C24, C27, C28. *)
From Verif Require Import Cpp UuidModel RotSpec GeomModel RotProofs TransProtoModel FrameSpec LieSpec ScrewSpec
  FrameProofs CoeffProofs LieProofs.
Local Open Scope R_scope.

(** A quarter turn about z and a shifted one, for the examples. *)
Definition lp_rot : so3 := SO3 quarter_z (repeat 1%N 16) (repeat 2%N 16).
Definition lp_pose : se3 := SE3 (SO3 quarter_z null_frame null_frame) (V3 1 2 3) (repeat 1%N 16) (repeat 2%N 16).
Lemma lp_frames : frames_ok (repeat 1%N 16) (repeat 2%N 16).
Proof. split; discriminate. Qed.
Lemma lp_rot_wf : so3_wf lp_rot.
Proof. split; [apply quarter_z_rot|apply lp_frames]. Qed.
Lemma lp_pose_wf : se3_wf lp_pose.
Proof. split; [apply quarter_z_rot|]. split; [apply lp_frames|split; reflexivity]. Qed.

(** ** C18 *)
Theorem c18_identity_neutral : forall g, so3_wf g ->
  so3_identity (Some (so3_into g, so3_into g)) = Ok (so3_id (so3_into g) (so3_into g)) /\
  so3_mul (so3_id (so3_into g) (so3_into g)) g = Ok g /\
  so3_mul g (so3_id (so3_from g) (so3_from g)) = Ok g.
Proof. exact so3_neutral_laws. Qed.
Print Assumptions c18_identity_neutral.

Theorem c18_inverse : forall g, so3_wf g -> exists h, so3_inverse g = Ok h /\ so3_wf h /\
  so3_mul g h = Ok (so3_id (so3_into g) (so3_into g)) /\
  so3_mul h g = Ok (so3_id (so3_from g) (so3_from g)) /\
  so3_inverse h = Ok g.
Proof. exact so3_inverse_laws. Qed.
Print Assumptions c18_inverse.

Theorem c18_product_acts_in_turn : forall a b r, so3_wf a -> so3_wf b -> so3_mul a b = Ok r ->
  so3_wf r /\ forall v, so3_act r v = so3_act a (so3_act b v).
Proof. exact so3_mul_closed. Qed.
Print Assumptions c18_product_acts_in_turn.

(** Whatever a program does with the API, every rotation it holds is a rotation. *)
Theorem c18_closed_under_histories : forall cs o, Forall call_sane cs -> In o (history [] cs) -> obj_wf o.
Proof. exact history_wf. Qed.
Print Assumptions c18_closed_under_histories.

(** Rotations preserve scalar products, lengths and cross products. *)
Theorem c18_preserves_geometry : forall g v w, so3_wf g ->
  dot (so3_act g v) (so3_act g w) = dot v w /\ norm (so3_act g v) = norm v /\
  cross (so3_act g v) (so3_act g w) = so3_act g (cross v w).
Proof. exact so3_geometry. Qed.
Print Assumptions c18_preserves_geometry.

(** Angle-axis construction and exp turn vectors as Rodrigues' formula says. *)
Theorem c18_angle_axis : forall angle axis a g, norm2 axis = 1 -> so3_of_angle_axis angle axis a = Ok g ->
  so3_wf g /\ forall v, so3_act g v = turned angle axis v.
Proof. exact so3_angle_axis_spec. Qed.
Print Assumptions c18_angle_axis.

Theorem c18_exp_turns : forall angle axis a g, norm2 axis = 1 -> so3_exp (vscale angle axis) a = Ok g ->
  so3_wf g /\ forall v, so3_act g v = turned angle axis v.
Proof. exact so3_exp_turns. Qed.
Print Assumptions c18_exp_turns.

Theorem c18_quaternion_round_trip : forall g, so3_wf g ->
  quat_unit (so3_quaternion g) /\
  so3_of_quat (so3_quaternion g) (Some (so3_into g, so3_from g)) = Ok g.
Proof. exact so3_quat_round_trip. Qed.
Print Assumptions c18_quaternion_round_trip.

Example c18_example : so3_wf lp_rot /\ so3_act lp_rot (V3 1 0 0) = V3 0 1 0 /\
  Forall call_sane [SO3Matrix quarter_z None; SO3AngleAxis 1 (V3 0 1 0) None; SO3Quat (Quat 1 0 0 0) None; Mul 0 1] /\
  length (history [] [SO3Matrix quarter_z None; SO3AngleAxis 1 (V3 0 1 0) None; SO3Quat (Quat 1 0 0 0) None; Mul 0 1]) = 4%nat.
Proof.
  split; [apply lp_rot_wf|]. split; [unfold so3_act, lp_rot, quarter_z; cbn [rotation_matrix]; vsimpl; f_equal; ring|].
  split; [|reflexivity]. constructor; [apply quarter_z_rot|]. constructor; [unfold call_sane, norm2; vsimpl; ring|].
  constructor; [cbn; ring|]. constructor; [exact I|constructor].
Qed.

(** ** C19 *)
Theorem c19_identity_neutral : forall g, se3_wf g ->
  se3_identity (Some (se3_into g, se3_into g)) = Ok (se3_id (se3_into g) (se3_into g)) /\
  se3_mul (se3_id (se3_into g) (se3_into g)) g = Ok g /\
  se3_mul g (se3_id (se3_from g) (se3_from g)) = Ok g.
Proof. exact se3_neutral_laws. Qed.
Print Assumptions c19_identity_neutral.

Theorem c19_inverse : forall g, se3_wf g -> exists h, se3_inverse g = Ok h /\ se3_wf h /\
  se3_mul g h = Ok (se3_id (se3_into g) (se3_into g)) /\
  se3_mul h g = Ok (se3_id (se3_from g) (se3_from g)) /\
  se3_inverse h = Ok g.
Proof. exact se3_inverse_laws. Qed.
Print Assumptions c19_inverse.

Theorem c19_group_action : forall a b r, se3_wf a -> se3_wf b -> se3_mul a b = Ok r ->
  se3_wf r /\ (forall p, se3_act r p = se3_act a (se3_act b p)) /\
  (forall i f p, se3_act (se3_id i f) p = p).
Proof. exact se3_action. Qed.
Print Assumptions c19_group_action.

Theorem c19_isometry : forall g p q, se3_wf g ->
  distance (se3_act g p) (se3_act g q) = distance p q /\
  vsub (se3_act g p) (se3_act g q) = se3_rotate g (vsub p q) /\
  se3_act g vzero = translation g.
Proof. exact se3_isometry. Qed.
Print Assumptions c19_isometry.

Example c19_example : se3_wf lp_pose /\ se3_act lp_pose (V3 1 0 0) = V3 1 3 3.
Proof.
  split; [apply lp_pose_wf|]. unfold se3_act, so3_act, lp_pose, quarter_z.
  cbn [rotation rotation_matrix translation]. vsimpl. f_equal; ring.
Qed.

(** ** C20, C21 *)
Theorem c20_exp_log : forall g, so3_wf g -> so3_exp (so3_log g) (Some (so3_into g, so3_from g)) = Ok g.
Proof. exact so3_exp_log. Qed.
Print Assumptions c20_exp_log.

(** A half turn and no turn at all meet the hypothesis. *)
Example c20_example :
  so3_wf (SO3 (M3 (-1) 0 0 0 (-1) 0 0 0 1) null_frame null_frame) /\ so3_wf so3_default.
Proof.
  split; (split; [|apply frames_ok_null]).
  - unfold is_rotation, det. cbn [rotation_matrix]. split; vring.
  - apply rot_mid.
Qed.

Theorem c21_log_exp : forall v a g, norm v < PI -> so3_exp v a = Ok g -> so3_log g = v.
Proof. exact so3_log_exp. Qed.
Print Assumptions c21_log_exp.

(** log is never longer than pi and no shorter vector has the same exponential. *)
Theorem c21_log_shortest : forall g, so3_wf g ->
  norm (so3_log g) <= PI /\
  forall v a h, so3_exp v a = Ok h -> rotation_matrix h = rotation_matrix g -> norm (so3_log g) <= norm v.
Proof. exact so3_log_shortest. Qed.
Print Assumptions c21_log_shortest.

Example c21_example : norm (V3 1 2 2) < PI /\ exists g, so3_exp (V3 1 2 2) None = Ok g.
Proof.
  split; [|eexists; reflexivity]. eapply Rle_lt_trans; [|apply three_lt_PI].
  apply norm_le_sqr; [lra|]. unfold norm2. vsimpl. lra.
Qed.

(** ** C22 *)
Theorem c22_exp_log : forall g, se3_wf g ->
  exists h, se3_exp (se3_log g) (Some (se3_into g, se3_from g)) = Ok h /\
    rotation h = rotation g /\ se3_into h = se3_into g /\ se3_from h = se3_from g /\
    norm (vsub (translation h) (translation g)) <= / 10^15 * norm (translation g) /\
    (plain_angle (norm2 (trot (se3_log g))) -> h = g).
Proof. exact se3_exp_log. Qed.
Print Assumptions c22_exp_log.

Theorem c22_log_exp : forall alg a g, norm (trot alg) < PI -> se3_exp alg a = Ok g ->
  trot (se3_log g) = trot alg /\
  norm (vsub (ttrans (se3_log g)) (ttrans alg)) <= / 10^15 * norm (ttrans alg) /\
  (plain_angle (norm2 (trot alg)) -> se3_log g = alg).
Proof. exact se3_log_exp. Qed.
Print Assumptions c22_log_exp.

(** Over the reals the inverse is not exact at tiny angles. *)
Theorem c22_exact_everywhere_refuted : exists g h, se3_wf g /\
  se3_exp (se3_log g) (Some (se3_into g, se3_from g)) = Ok h /\ h <> g.
Proof. exact se3_exp_log_refuted. Qed.
Print Assumptions c22_exact_everywhere_refuted.

Example c22_example : se3_wf lp_pose /\ plain_angle 1 /\ plain_angle 0 /\
  norm (trot (T6 (V3 0 1 0) (V3 5 6 7))) < PI /\
  exists g, se3_exp (T6 (V3 0 1 0) (V3 5 6 7)) None = Ok g.
Proof.
  split; [apply lp_pose_wf|]. unfold plain_angle. rewrite tiny_val.
  split; [right; lra|]. split; [left; reflexivity|]. split; [|eexists; reflexivity].
  eapply Rle_lt_trans; [|apply three_lt_PI]. apply norm_le_sqr; [lra|]. unfold norm2. cbn [trot]. vsimpl. lra.
Qed.

(** ** C23 *)
Theorem c23_so3_adjoint : forall g v, so3_wf g ->
  (let* e := so3_exp v (Some (so3_from g, so3_from g)) in
   let* ge := so3_mul g e in
   let* gi := so3_inverse g in
   so3_mul ge gi) =
  so3_exp (so3_adjoint_times g v) (Some (so3_into g, so3_into g)).
Proof. exact so3_adjoint_exp. Qed.
Print Assumptions c23_so3_adjoint.

Theorem c23_se3_adjoint : forall g alg, se3_wf g -> exists h h',
  (let* e := se3_exp alg (Some (se3_from g, se3_from g)) in
   let* ge := se3_mul g e in
   let* gi := se3_inverse g in
   se3_mul ge gi) = Ok h /\
  se3_exp (se3_adjoint_times g alg) (Some (se3_into g, se3_into g)) = Ok h' /\
  rotation h = rotation h' /\ se3_into h = se3_into h' /\ se3_from h = se3_from h' /\
  norm (vsub (translation h) (translation h')) <= / 10^26 * norm (translation g) /\
  (plain_angle (norm2 (trot alg)) -> h = h').
Proof. exact se3_adjoint_exp. Qed.
Print Assumptions c23_se3_adjoint.

Theorem c23_matrices : forall (g : so3) (h : se3) v w a b,
  mvec (so3_adjoint g) v = so3_adjoint_times g v /\
  mvec (so3_adjoint_alg v) w = so3_adjoint_times_alg v w /\
  mat6_times (se3_adjoint h) a = se3_adjoint_times h a /\
  mat6_times (se3_adjoint_alg a) b = se3_adjoint_times_alg a b.
Proof. exact adjoint_matrices. Qed.
Print Assumptions c23_matrices.

Theorem c23_products : forall (a b r : so3) (c d q : se3) v alg,
  so3_wf a -> so3_wf b -> so3_mul a b = Ok r -> se3_wf c -> se3_wf d -> se3_mul c d = Ok q ->
  so3_adjoint_times r v = so3_adjoint_times a (so3_adjoint_times b v) /\
  se3_adjoint_times q alg = se3_adjoint_times c (se3_adjoint_times d alg).
Proof. exact adjoint_products. Qed.
Print Assumptions c23_products.

Theorem c23_bracket_is_commutator : forall v w a b,
  cross_matrix (so3_adjoint_times_alg v w) =
    madd (mmul (cross_matrix v) (cross_matrix w)) (mscale (-1) (mmul (cross_matrix w) (cross_matrix v))) /\
  hat6 (se3_adjoint_times_alg a b) = hat_sub (hat_mul (hat6 a) (hat6 b)) (hat_mul (hat6 b) (hat6 a)).
Proof. exact bracket_is_commutator. Qed.
Print Assumptions c23_bracket_is_commutator.

Theorem c23_bracket_laws : forall a b c (x y z : vec3),
  so3_adjoint_times_alg x y = vneg (so3_adjoint_times_alg y x) /\
  vadd (so3_adjoint_times_alg x (so3_adjoint_times_alg y z))
    (vadd (so3_adjoint_times_alg y (so3_adjoint_times_alg z x)) (so3_adjoint_times_alg z (so3_adjoint_times_alg x y))) = vzero /\
  se3_adjoint_times_alg a b = tscale (-1) (se3_adjoint_times_alg b a) /\
  tadd (se3_adjoint_times_alg a (se3_adjoint_times_alg b c))
    (tadd (se3_adjoint_times_alg b (se3_adjoint_times_alg c a)) (se3_adjoint_times_alg c (se3_adjoint_times_alg a b))) = tzero.
Proof. exact bracket_laws. Qed.
Print Assumptions c23_bracket_laws.

Theorem c23_bracket_preserved : forall (g : so3) (h : se3) v w a b, so3_wf g -> se3_wf h ->
  so3_adjoint_times g (so3_adjoint_times_alg v w) =
    so3_adjoint_times_alg (so3_adjoint_times g v) (so3_adjoint_times g w) /\
  se3_adjoint_times h (se3_adjoint_times_alg a b) =
    se3_adjoint_times_alg (se3_adjoint_times h a) (se3_adjoint_times h b).
Proof. exact bracket_preserved. Qed.
Print Assumptions c23_bracket_preserved.

Example c23_example : so3_wf lp_rot /\ se3_wf lp_pose /\
  (exists r, so3_mul (SO3 quarter_z null_frame null_frame) lp_rot = Ok r) /\
  (exists h, se3_inverse lp_pose = Ok h /\ exists r, se3_mul lp_pose h = Ok r) /\
  so3_adjoint_times lp_rot (V3 1 0 0) = V3 0 1 0 /\
  ttrans (se3_adjoint_times lp_pose (T6 (V3 0 0 1) vzero)) = V3 2 (-1) 0.
Proof.
  split; [apply lp_rot_wf|]. split; [apply lp_pose_wf|]. split; [eexists; reflexivity|].
  split; [eexists; split; [reflexivity|]; eexists; reflexivity|].
  unfold so3_adjoint_times, se3_adjoint_times, lp_rot, lp_pose, quarter_z, vzero.
  cbn [rotation rotation_matrix translation trot ttrans]. vsimpl. split; f_equal; ring.
Qed.

(** ** C24 *)
Theorem c24_so3_ends : forall g, so3_wf g ->
  so3_interp g 0 = Ok (so3_id (so3_into g) (so3_from g)) /\ so3_interp g 1 = Ok g.
Proof. exact so3_interp_ends. Qed.
Print Assumptions c24_so3_ends.

Theorem c24_so3_subgroup : forall g s t, so3_wf g -> exists a b c,
  so3_interp g s = Ok a /\ so3_interp g t = Ok b /\ so3_interp g (s + t) = Ok c /\
  so3_into a = so3_into g /\ so3_from a = so3_from g /\ so3_wf a /\
  forall v, so3_act c v = so3_act a (so3_act b v).
Proof. exact so3_interp_law. Qed.
Print Assumptions c24_so3_subgroup.

(** The interpolant turns about the axis of the transform by the fraction of its angle. *)
Theorem c24_so3_fraction_of_angle : forall g s h, so3_wf g -> so3_interp g s = Ok h ->
  exists angle axis, norm2 axis = 1 /\ (forall v, so3_act g v = turned angle axis v) /\
    0 <= angle <= PI /\ forall v, so3_act h v = turned (s * angle) axis v.
Proof. exact so3_interp_turned. Qed.
Print Assumptions c24_so3_fraction_of_angle.

Theorem c24_se3_ends : forall g, se3_wf g ->
  se3_interp g 0 = Ok (se3_id (se3_into g) (se3_from g)) /\
  exists h, se3_interp g 1 = Ok h /\
    rotation h = rotation g /\ se3_into h = se3_into g /\ se3_from h = se3_from g /\
    norm (vsub (translation h) (translation g)) <= / 10^15 * norm (translation g) /\
    (plain_angle (norm2 (trot (se3_log g))) -> h = g).
Proof. exact se3_interp_ends. Qed.
Print Assumptions c24_se3_ends.

Theorem c24_se3_subgroup : forall g s t, se3_wf g -> exists a b c,
  se3_interp g s = Ok a /\ se3_interp g t = Ok b /\ se3_interp g (s + t) = Ok c /\
  se3_into a = se3_into g /\ se3_from a = se3_from g /\ se3_wf a /\
  (forall v, se3_rotate c v = se3_rotate a (se3_rotate b v)) /\
  (forall p, norm (vsub (se3_act c p) (se3_act a (se3_act b p)))
     <= / 10^23 * (Rabs s + Rabs t + Rabs (s + t)) * norm (ttrans (se3_log g))) /\
  ((forall x, In x [s; t; s + t] -> plain_angle (x * x * norm2 (trot (se3_log g)))) ->
     forall p, se3_act c p = se3_act a (se3_act b p)).
Proof. exact se3_interp_law. Qed.
Print Assumptions c24_se3_subgroup.

Theorem c24_from_frame_replaced : forall (g : so3) (k : se3) s f, so3_wf g -> se3_wf k ->
  (so3_is_framed g = true -> f <> null_frame -> exists h,
     so3_interp g s = Ok h /\ so3_interp_from g s f = Ok (SO3 (rotation_matrix h) (so3_into g) f)) /\
  (so3_is_framed g = false \/ f = null_frame -> so3_interp_from g s f = Throw) /\
  (se3_is_framed k = true -> f <> null_frame -> exists h,
     se3_interp k s = Ok h /\ se3_interp_from k s f = Ok (SE3 (rotation h) (translation h) (se3_into k) f)) /\
  (se3_is_framed k = false \/ f = null_frame -> se3_interp_from k s f = Throw).
Proof. exact interp_from_spec. Qed.
Print Assumptions c24_from_frame_replaced.

Example c24_example : so3_wf lp_rot /\ se3_wf lp_pose /\ so3_is_framed lp_rot = true /\
  so3_interp_from so3_default (1 / 2) (repeat 3%N 16) = Throw /\
  plain_angle ((1 / 2) * (1 / 2) * norm2 (V3 1 0 0)).
Proof.
  split; [apply lp_rot_wf|]. split; [apply lp_pose_wf|]. split; [reflexivity|]. split; [reflexivity|].
  right. rewrite tiny_val. unfold norm2. vsimpl. lra.
Qed.

(** ** C27 *)
Theorem c27_inverse_distance : forall a b, se3_wf a -> se3_wf b ->
  (se3_into a = se3_into b -> exists a_from_b b_from_a,
     (let* i := se3_inverse a in se3_mul i b) = Ok a_from_b /\
     (let* i := se3_inverse b in se3_mul i a) = Ok b_from_a /\
     se3_inverse_distance a b = Ok (norm (translation a_from_b)) /\
     se3_inverse_distance a b = Ok (norm (translation b_from_a))) /\
  (se3_into a <> se3_into b -> se3_inverse_distance a b = Throw).
Proof. exact se3_inverse_distance_spec. Qed.
Print Assumptions c27_inverse_distance.

(** se3_distance compares the images of the reference origin. *)
Theorem c27_distance : forall a b, se3_wf a -> se3_wf b ->
  (se3_from a = se3_from b -> exists d ib a_from_b,
     se3_distance a b = Ok d /\ se3_inverse b = Ok ib /\ se3_mul a ib = Ok a_from_b /\
     translation a_from_b =
       vsub (translation a) (so3_act (rotation a_from_b) (translation b)) /\
     d = distance (se3_act a vzero) (se3_act b vzero) /\
     (rotation a = rotation b -> d = norm (translation a_from_b))) /\
  (se3_from a <> se3_from b -> se3_distance a b = Throw).
Proof. exact se3_distance_law. Qed.
Print Assumptions c27_distance.

(** The documented value, the norm of the translation of a_from_b, is another one as
    soon as the rotations differ. *)
Theorem c27_distance_is_relative_translation_refuted : exists a b ib a_from_b d,
  se3_wf a /\ se3_wf b /\
  se3_inverse b = Ok ib /\ se3_mul a ib = Ok a_from_b /\ se3_distance a b = Ok d /\
  d <> norm (translation a_from_b).
Proof. exact se3_distance_refuted. Qed.
Print Assumptions c27_distance_is_relative_translation_refuted.

Theorem c27_symmetric : forall a b,
  se3_distance a b = se3_distance b a /\ se3_inverse_distance a b = se3_inverse_distance b a.
Proof. exact distance_symmetric. Qed.
Print Assumptions c27_symmetric.

Example c27_example :
  let q := SE3 (SO3 mid null_frame null_frame) (V3 1 0 0) (repeat 1%N 16) (repeat 7%N 16) in
  se3_wf lp_pose /\ se3_wf q /\ se3_into lp_pose = se3_into q /\ se3_distance lp_pose q = Throw.
Proof.
  cbv zeta. split; [apply lp_pose_wf|]. split; [|split; reflexivity].
  split; [apply rot_mid|]. split; [split; discriminate|split; reflexivity].
Qed.

(** ** C28 *)
Theorem c28_cross_matrix : forall a b c k m,
  mvec (cross_matrix a) b = cross a b /\ mtrans (cross_matrix a) = mscale (-1) (cross_matrix a) /\
  cross_matrix (vadd a c) = madd (cross_matrix a) (cross_matrix c) /\
  cross_matrix (vscale k a) = mscale k (cross_matrix a) /\
  (is_rotation m -> mmul (mmul m (cross_matrix a)) (mtrans m) = cross_matrix (mvec m a)).
Proof. exact cross_matrix_laws. Qed.
Print Assumptions c28_cross_matrix.

Example c28_example : is_rotation quarter_z /\ mvec (cross_matrix (V3 1 0 0)) (V3 0 1 0) = V3 0 0 1.
Proof. split; [apply quarter_z_rot|]. unfold cross_matrix. vsimpl. f_equal; ring. Qed.
