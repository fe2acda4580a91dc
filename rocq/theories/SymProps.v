(** Symmetries of time curves: C61, C62. *)
From Verif Require Import Cpp UuidModel RotSpec GeomModel RotProofs CoeffProofs TransProtoSpec DerivSpec DerivProofs FrameSpec FrameProofs LieSpec
  ScrewSpec LieProofs DiffProofs JetModel JetSpec JetLaws JetProofs CurveModel CurveSpec CurveProofs TCurveProofs SegClose DCurveCases
  SymSpec SymProofs SymProofs2 SymCases.
Local Open Scope R_scope.

(** ** C61 *)
(** Let two neighbouring control points lie on one motion of constant velocity, at places
    that are a quintic polynomial of the time, with the derivatives that follow from it,
    less than half a turn apart.  Then the curve between them is on the motion at the
    place that the polynomial gives, with the derivatives that follow. *)
Theorem c61_so3 : forall P v f f' f'' k a b t, steady so3_ops so3_calc P v -> quintic_plan f f' f'' -> curve_wf so3_ops so3_calc k ->
  neighbours k a b -> (forall p, p = a \/ p = b -> c_point p = rider so3_ops P v (f (c_time p)) (f' (c_time p)) (f'' (c_time p))) ->
  norm (vscale (f (c_time b) - f (c_time a)) v) < PI -> c_time a <= t <= c_time b ->
  tc_point_at so3_ops k t = Ok (rider so3_ops P v (f t) (f' t) (f'' t)).
Proof. exact line_so3. Qed.
Print Assumptions c61_so3.

(** On SE3 this is so up to 1e-23 of the distances, and exactly where no increment of the
    segment is a tiny rotation. *)
Theorem c61_se3 : forall P v f f' f'' k a b t, steady se3_ops se3_calc P v -> quintic_plan f f' f'' -> curve_wf se3_ops se3_calc k ->
  neighbours k a b -> (forall p, p = a \/ p = b -> c_point p = rider se3_ops P v (f (c_time p)) (f' (c_time p)) (f'' (c_time p))) ->
  norm (trot (tscale (f (c_time b) - f (c_time a)) v)) < PI -> plain_angle (norm2 (trot (tscale (f (c_time b) - f (c_time a)) v))) ->
  c_time a < t <= c_time b ->
  exists s m j, In s (segments k) /\ joins se3_ops a b s /\ motion se3_ops (c_point a) (c_point b) m /\ tc_point_at se3_ops k t = Ok j /\
    let dt := c_time b - c_time a in
    let size := Rabs (f (c_time b) - f (c_time a)) + dt * (Rabs (f' (c_time a)) + Rabs (f' (c_time b))) +
                dt^2 * (Rabs (f'' (c_time a)) + Rabs (f'' (c_time b))) in
    jet_close (/ 10^23 * (size * norm (ttrans v))) j (rider se3_ops P v (f t) (f' t) (f'' t)) /\
    (Forall (fun w => plain_angle (norm2 (trot w))) (increments (curve s) m ((t - c_time a) / dt)) ->
       j = rider se3_ops P v (f t) (f' t) (f'' t)).
Proof. exact line_se3. Qed.
Print Assumptions c61_se3.

(** Motions without rotation are always followed exactly. *)
Theorem c61_se3_straight : forall P v f f' f'' k a b t, steady se3_ops se3_calc P v -> trot v = vzero -> quintic_plan f f' f'' ->
  curve_wf se3_ops se3_calc k -> neighbours k a b ->
  (forall p, p = a \/ p = b -> c_point p = rider se3_ops P v (f (c_time p)) (f' (c_time p)) (f'' (c_time p))) ->
  c_time a < t <= c_time b -> tc_point_at se3_ops k t = Ok (rider se3_ops P v (f t) (f' t) (f'' t)).
Proof. exact line_straight. Qed.
Print Assumptions c61_se3_straight.

(** A motion of constant velocity that is sampled at any times, more than twice per turn,
    is reproduced at all times between the first sample and the last. *)
Theorem c61_uniform_so3 : forall P v k, steady so3_ops so3_calc P v -> curve_wf so3_ops so3_calc k ->
  (forall p, In p (control_pts k) -> c_point p = JetL (P (c_time p)) v vzero) ->
  (forall a b, neighbours k a b -> (c_time b - c_time a) * norm v < PI) ->
  forall t, covers k t -> tc_point_at so3_ops k t = Ok (JetL (P t) v vzero).
Proof. exact uniform_so3. Qed.
Print Assumptions c61_uniform_so3.
Theorem c61_uniform_straight : forall P v k, steady se3_ops se3_calc P (T6 vzero v) -> curve_wf se3_ops se3_calc k ->
  (forall p, In p (control_pts k) -> c_point p = JetL (P (c_time p)) (T6 vzero v) tzero) ->
  forall t, covers k t -> tc_point_at se3_ops k t = Ok (JetL (P t) (T6 vzero v) tzero).
Proof. exact uniform_straight. Qed.
Print Assumptions c61_uniform_straight.

(** Half a turn is the limit: a curve that should go round once stands still. *)
Theorem c61_far_refuted : exists P v f f' f'' k a b t, steady so3_ops so3_calc P v /\ quintic_plan f f' f'' /\ curve_wf so3_ops so3_calc k /\ neighbours k a b /\
  (forall p, p = a \/ p = b -> c_point p = rider so3_ops P v (f (c_time p)) (f' (c_time p)) (f'' (c_time p))) /\ c_time a <= t <= c_time b /\
  tc_point_at so3_ops k t <> Ok (rider so3_ops P v (f t) (f' t) (f'' t)).
Proof. exact far_case. Qed.
Print Assumptions c61_far_refuted.

(** A turn of one radian in a smooth step, and a screw motion in the same step. *)
Example c61_example : let v := V3 0 0 1 in let k := turn_curve mid v in
  steady so3_ops so3_calc (spin mid v) v /\ quintic_plan ramp ramp' ramp'' /\ curve_wf so3_ops so3_calc k /\
  neighbours k (Control 0 (rider so3_ops (spin mid v) v (ramp 0) (ramp' 0) (ramp'' 0))) (Control 1 (rider so3_ops (spin mid v) v (ramp 1) (ramp' 1) (ramp'' 1))) /\
  norm (vscale (ramp 1 - ramp 0) v) < PI /\ ramp (1/2) = 1/2.
Proof.
  intros v k. destruct ramp_ends as (A1 & A2 & A3 & B1 & B2 & B3 & C). rewrite A1, A2, A3, B1, B2, B3.
  destruct (turn_ok mid v rot_mid) as (W & E & N). split; [apply spin_steady, rot_mid|]. split; [exact ramp_plan|]. split; [exact W|]. split; [exact N|].
  split; [|exact C]. rewrite Rminus_0_r, vscale_1. apply one_radian.
Qed.
Example c61_screw_example : let v := T6 (V3 0 0 1) (V3 1 0 (1/2)) in let P := helix (V3 0 0 1) (V3 1 0 (1/2)) in let k := screw_curve in
  steady se3_ops se3_calc P v /\ curve_wf se3_ops se3_calc k /\
  neighbours k (Control 0 (rider se3_ops P v (ramp 0) (ramp' 0) (ramp'' 0))) (Control 1 (rider se3_ops P v (ramp 1) (ramp' 1) (ramp'' 1))) /\
  norm (trot (tscale (ramp 1 - ramp 0) v)) < PI /\ plain_angle (norm2 (trot (tscale (ramp 1 - ramp 0) v))).
Proof. exact screw_case. Qed.
(** A rotation of one radian per second, sampled at the times 0, 1 and 4. *)
Example c61_uniform_example : let v := V3 0 0 1 in let P := spin mid v in exists k,
  steady so3_ops so3_calc P v /\ curve_wf so3_ops so3_calc k /\ control_pts k = [Control 0 (JetL (P 0) v vzero); Control 1 (JetL (P 1) v vzero); Control 4 (JetL (P 4) v vzero)] /\
  (forall a b, neighbours k a b -> (c_time b - c_time a) * norm v < PI) /\ covers k 3.
Proof. exact uniform_case. Qed.

(** ** C62 *)
(** The unit of time and its origin do not matter. *)
Theorem c62_clock : forall G T (o : lie_ops G T) (c : lie_calc G T), curve_group o c -> forall rate shift k k', 0 < rate ->
  curve_wf o c k -> curve_wf o c k' -> correspond (fun t => rate * t + shift) (on_clock o rate) k k' ->
  answer o (fun t => rate * t + shift) (on_clock o rate) k k'.
Proof. exact (fun G T o c H => clock_answer (group_laws G T o c H)). Qed.
Print Assumptions c62_clock.

(** Nor does the reference frame. *)
Theorem c62_reference : forall G T (o : lie_ops G T) (c : lie_calc G T), curve_group o c -> forall g k k', well_formed c g ->
  curve_wf o c k -> curve_wf o c k' -> (forall p, In p (control_pts k) -> g_from o (frame_from_ref (c_point p)) = g_into o g) ->
  correspond (fun t => t) (seen_from o g) k k' -> answer o (fun t => t) (seen_from o g) k k'.
Proof. exact (fun G T o c H => reference_answer (group_laws G T o c H)). Qed.
Print Assumptions c62_reference.

(** Nor does the point of a body that is followed, if neighbours are less than half a turn
    apart. *)
Theorem c62_point_so3 : forall h k k', so3_wf h -> curve_wf so3_ops so3_calc k -> curve_wf so3_ops so3_calc k' ->
  (forall p, In p (control_pts k) -> so3_from h = so3_into (frame_from_ref (c_point p))) ->
  correspond (fun t => t) (carried_by so3_ops h) k k' ->
  (forall a b m, neighbours k a b -> motion so3_ops (c_point a) (c_point b) m -> norm (so3_log m) < PI) ->
  answer so3_ops (fun t => t) (carried_by so3_ops h) k k'.
Proof. exact point_so3. Qed.
Print Assumptions c62_point_so3.

(** On SE3 up to 1e-23 of the distances, and exactly where no increment is a tiny rotation. *)
Theorem c62_point_se3 : forall h k k' t, se3_wf h -> curve_wf se3_ops se3_calc k -> curve_wf se3_ops se3_calc k' ->
  (forall p, In p (control_pts k) -> se3_from h = se3_into (frame_from_ref (c_point p))) ->
  correspond (fun t => t) (carried_by se3_ops h) k k' ->
  (forall a b m, neighbours k a b -> motion se3_ops (c_point a) (c_point b) m -> norm (trot (se3_log m)) < PI /\ plain_angle (norm2 (trot (se3_log m)))) ->
  (tc_point_at se3_ops k t = Throw <-> tc_point_at se3_ops k' t = Throw) /\
  forall j, tc_point_at se3_ops k t = Ok j -> exists j' g l l', tc_point_at se3_ops k' t = Ok j' /\
    increments_at k t l /\ increments_at k' t l' /\ se3_mul h (frame_from_ref j) = Ok g /\
    pose_close (/ 10^23 * (travel l + travel l')) (frame_from_ref j') g /\
    trot (d_frame_from_ref j') = trot (se3_adjoint_times h (d_frame_from_ref j)) /\
    trot (d2_frame_from_ref j') = trot (se3_adjoint_times h (d2_frame_from_ref j)) /\
    (none_tiny l -> none_tiny l' -> carried_by se3_ops h j j').
Proof. exact point_se3. Qed.
Print Assumptions c62_point_se3.

(** A half turn goes one way round in one frame and the other way round in another. *)
Theorem c62_half_turn_refuted : exists h k k', so3_wf h /\ curve_wf so3_ops so3_calc k /\ curve_wf so3_ops so3_calc k' /\
  (forall p, In p (control_pts k) -> so3_from h = so3_into (frame_from_ref (c_point p))) /\
  correspond (fun t => t) (carried_by so3_ops h) k k' /\ ~ answer so3_ops (fun t => t) (carried_by so3_ops h) k k'.
Proof. exact half_turn_case. Qed.
Print Assumptions c62_half_turn_refuted.

(** The direction of time matters: the curve through the same points backwards is not the
    curve backwards. *)
Theorem c62_backwards_refuted : exists k k', curve_wf so3_ops so3_calc k /\ curve_wf so3_ops so3_calc k' /\ turned_round k k' /\
  ~ answer so3_ops Ropp backwards k k'.
Proof. exact round_case. Qed.
Print Assumptions c62_backwards_refuted.

(** One curve on a clock of half seconds that started earlier, in another reference frame,
    and for another point of the body. *)
Example c62_clock_example : exists k k', curve_wf so3_ops so3_calc k /\ curve_wf so3_ops so3_calc k' /\ length (control_pts k) = 2%nat /\
  correspond (fun t => 2 * t + 1) (on_clock so3_ops 2) k k' /\ covers k (1/2).
Proof. exact clock_case. Qed.
Example c62_reference_example : exists g k k', g <> so3_id null_frame null_frame /\ so3_wf g /\ curve_wf so3_ops so3_calc k /\ curve_wf so3_ops so3_calc k' /\
  (forall p, In p (control_pts k) -> so3_from (frame_from_ref (c_point p)) = so3_into g) /\ length (control_pts k) = 2%nat /\
  correspond (fun t => t) (seen_from so3_ops g) k k'.
Proof. exact reference_case. Qed.
Example c62_point_example : exists h k k', translation h = V3 1 2 3 /\ se3_wf h /\ curve_wf se3_ops se3_calc k /\ curve_wf se3_ops se3_calc k' /\
  (forall p, In p (control_pts k) -> se3_from h = se3_into (frame_from_ref (c_point p))) /\ length (control_pts k) = 2%nat /\
  correspond (fun t => t) (carried_by se3_ops h) k k' /\
  (forall a b m, neighbours k a b -> motion se3_ops (c_point a) (c_point b) m -> norm (trot (se3_log m)) < PI /\ plain_angle (norm2 (trot (se3_log m)))).
Proof. exact point_case. Qed.
