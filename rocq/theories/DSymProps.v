(** Distance curves on one screw motion, seen from elsewhere, or carrying a sensor: C68. *)
From Verif Require Import Cpp UuidModel RotSpec GeomModel DerivSpec FrameSpec ScrewSpec LieSpec FrameProofs RotProofs CoeffProofs LieProofs
  JetModel JetLaws CurveModel CurveSpec TCurveProofs DCurveSpec DCurveProofs DCurveCases DSymSpec DSymProofs DSymProofs2.
Local Open Scope R_scope.

(** ** Constant velocity *)
(** If the poses are those of a body that moves with constant velocities, at times that
    grow by less than half a turn each, then the arc lengths are the distances travelled,
    and the query at the distance travelled at any time gives the pose at that time: the
    orientation exactly, the position up to 1e-23 of the distance, exactly if the turn
    since the control points is zero or not tiny. *)
Theorem c68_steady : forall k m p w v xs, d_built k -> is_rotation m -> 0 < norm v -> hd 0 xs = 0 ->
  Forall2 (on_screw m p w v) xs (map ref_from_control (d_control_pts k)) ->
  (forall x y, In (x, y) (consecutive xs) -> good_step w x y) ->
  map arc_length (d_control_pts k) = map (fun x => x * norm v) xs /\ dc_length k = Ok (last xs 0 * norm v) /\
  forall z, (2 <= length xs)%nat -> 0 <= z <= last xs 0 -> exists g, dc_point_at k (z * norm v) = Ok (Some g) /\ se3_wf g /\
    near_screw (/ 10^23 * (z * norm v)) m p w v z g /\
    ((forall x, In x xs -> plain_angle ((z - x) * (z - x) * norm2 w)) -> on_screw m p w v z g).
Proof. exact steady_curve. Qed.
Print Assumptions c68_steady.

(** The same for one segment of any curve. *)
Theorem c68_steady_segment : forall k l1 a b l2 m p w v x y z, d_built k -> d_control_pts k = l1 ++ a :: b :: l2 -> is_rotation m -> 0 < norm v ->
  on_screw m p w v x (ref_from_control a) -> on_screw m p w v y (ref_from_control b) -> good_step w x y ->
  x <= z <= y -> (l1 = [] \/ x < z) ->
  arc_length b = arc_length a + (y - x) * norm v /\
  exists g, dc_point_at k (arc_length a + (z - x) * norm v) = Ok (Some g) /\ se3_wf g /\
    (same_frames se3_ops (ref_from_control a) (ref_from_control b) -> same_frames se3_ops g (ref_from_control a)) /\
    near_screw (/ 10^23 * ((z - x) * norm v)) m p w v z g /\
    (plain_angle ((z - x) * (z - x) * norm2 w) -> on_screw m p w v z g).
Proof. exact steady_segment. Qed.
Print Assumptions c68_steady_segment.

(** A body that starts at the origin along x and turns about z, one radian per metre. *)
Definition circling (x : R) : mat3 * vec3 := (mexp (vscale x (V3 0 0 1)), screw (V3 0 0 1) (V3 1 0 0) x).
Definition circle_curve : dcurve := bare_curve (map circling [0; 1; 2]).
Lemma norm_unit_x : norm (V3 1 0 0) = 1.
Proof. unfold norm, norm2, dot. cbn [vx vy vz]. replace (1 * 1 + 0 * 0 + 0 * 0) with 1 by ring. apply sqrt_1. Qed.
Lemma norm_unit_z : norm (V3 0 0 1) = 1.
Proof. unfold norm, norm2, dot. cbn [vx vy vz]. replace (0 * 0 + 0 * 0 + 1 * 1) with 1 by ring. apply sqrt_1. Qed.
Lemma circling_good x y : y = x + 1 -> good_step (V3 0 0 1) x y.
Proof.
  intros ->. unfold good_step, plain_angle. rewrite norm_unit_z, tiny_val. replace (norm2 (V3 0 0 1)) with 1 by (unfold norm2, dot; cbn; ring).
  pose proof three_lt_PI. split; [lra|]. split; [lra|]. right. replace (x + 1 - x) with 1 by ring. lra.
Qed.
Lemma circle_built : d_built circle_curve /\ map ref_from_control (d_control_pts circle_curve) = map (fun g => bare (fst g) (snd g)) (map circling [0; 1; 2]).
Proof. apply bare_curve_spec. rewrite Forall_map. repeat constructor; apply mexp_rot. Qed.
Example c68_steady_example : d_built circle_curve /\ is_rotation mid /\ 0 < norm (V3 1 0 0) /\ hd 0 [0; 1; 2] = 0 /\
  Forall2 (on_screw mid vzero (V3 0 0 1) (V3 1 0 0)) [0; 1; 2] (map ref_from_control (d_control_pts circle_curve)) /\
  (forall x y, In (x, y) (consecutive [0; 1; 2]) -> good_step (V3 0 0 1) x y) /\ 0 <= 3 / 2 <= last [0; 1; 2] 0.
Proof.
  destruct circle_built as [B E]. split; [exact B|]. split; [apply rot_mid|]. split; [rewrite norm_unit_x; lra|]. split; [reflexivity|].
  split; [|split; [|cbn; lra]].
  - rewrite E. assert (O : forall x, on_screw mid vzero (V3 0 0 1) (V3 1 0 0) x (bare (fst (circling x)) (snd (circling x)))).
    { intro x. split; cbn [bare circling fst snd rotation rotation_matrix unframed position translation].
      - rewrite mmul_1_l. reflexivity.
      - unfold position. cbn. rewrite mvec_1. generalize (screw (V3 0 0 1) (V3 1 0 0) x). intro. vring. }
    cbn [map]. repeat (constructor; [apply O|]). constructor.
  - intros x y H. cbn [consecutive In] in H.
    destruct H as [H|[H|[]]]; injection H as <- <-; apply circling_good; ring.
Qed.

(** ** Another reference frame *)
(** Feeding a curve the same poses as seen from another reference frame changes nothing
    but the reference frame of the answers: the same poses are taken, the length is the
    same, the same queries throw or give no usable answer, and all others give the same
    pose as seen from the other frame, exactly. *)
Theorem c68_reference : forall h gs gs', se3_wf h -> Forall se3_wf gs -> (forall g, In g gs -> se3_from h = se3_into g) ->
  Forall2 (fun g g' => se3_mul h g = Ok g') gs gs' ->
  let k := after_dappends gs dc_empty in let k' := after_dappends gs' dc_empty in
  length (d_control_pts k') = length (d_control_pts k) /\ dc_length k' = dc_length k /\
  forall s, (dc_point_at k' s = Throw <-> dc_point_at k s = Throw) /\ (dc_point_at k' s = Ok None <-> dc_point_at k s = Ok None) /\
    forall g, dc_point_at k s = Ok (Some g) -> exists g', se3_mul h g = Ok g' /\ dc_point_at k' s = Ok (Some g').
Proof. exact (fun h gs gs' Wh => reference_curve h Wh gs gs'). Qed.
Print Assumptions c68_reference.

(** ** A mounted sensor *)
(** Feeding a curve the poses of a sensor mounted on the body: segments have the length of
    the path of the sensor, and at the same fraction of corresponding segments the answer
    is the pose of the body with the sensor mounted on it, if the segment of the body is
    less than half a turn and not a tiny one. *)
Theorem c68_mounted : forall h gs gs', se3_wf h -> Forall se3_wf gs -> (forall g, In g gs -> se3_from g = se3_into h) ->
  Forall2 (fun g g' => se3_mul g h = Ok g') gs gs' ->
  let k := after_dappends gs dc_empty in let k' := after_dappends gs' dc_empty in
  Forall2 (fun p p' => se3_mul (ref_from_control p) h = Ok (ref_from_control p')) (d_control_pts k) (d_control_pts k') /\
  forall l1 a b l2 l1' a' b' l2' m, d_control_pts k = l1 ++ a :: b :: l2 -> d_control_pts k' = l1' ++ a' :: b' :: l2' ->
    length l1 = length l1' -> relative (ref_from_control a) (ref_from_control b) m ->
    norm (trot (se3_log m)) < PI -> plain_angle (norm2 (trot (se3_log m))) ->
    arc_length b' - arc_length a' = norm (point_velocity (trot (se3_log m)) (ttrans (se3_log m)) (translation h)) /\
    forall f, 0 <= f <= 1 -> (l1 = [] \/ 0 < f) -> arc_length a < arc_length b -> arc_length a' < arc_length b' ->
    exists g g' gh, dc_point_at k (arc_length a + f * (arc_length b - arc_length a)) = Ok (Some g) /\
      dc_point_at k' (arc_length a' + f * (arc_length b' - arc_length a')) = Ok (Some g') /\ se3_mul g h = Ok gh /\
      same_pose_within (/ 10^23 * (f * (arc_length b - arc_length a + (arc_length b' - arc_length a')))) g' gh /\
      (plain_angle (f * f * norm2 (trot (se3_log m))) -> g' = gh).
Proof. exact (fun h gs gs' Wh => mounted_curve h Wh gs gs'). Qed.
Print Assumptions c68_mounted.

(** A sensor one metre to the right of the circling body. *)
Definition side_sensor : se3 := bare (mexp (V3 1 0 0)) (V3 0 (-1) 0).
Example c68_mounted_example : se3_wf side_sensor /\ exists gs gs', gs = map (fun g => bare (fst g) (snd g)) (map circling [0; 1; 2]) /\
  Forall se3_wf gs /\ (forall g, In g gs -> se3_from g = se3_into side_sensor) /\
  Forall2 (fun g g' => se3_mul g side_sensor = Ok g') gs gs' /\ (forall g, In g gs -> se3_from side_sensor = se3_into g) /\
  (exists hs, Forall2 (fun g g' => se3_mul side_sensor g = Ok g') gs hs) /\
  exists a b c m, d_control_pts (after_dappends gs dc_empty) = [] ++ a :: b :: [c] /\
    relative (ref_from_control a) (ref_from_control b) m /\ norm (trot (se3_log m)) < PI /\ plain_angle (norm2 (trot (se3_log m))) /\
    norm (point_velocity (trot (se3_log m)) (ttrans (se3_log m)) (translation side_sensor)) = 2.
Proof.
  assert (Ws : se3_wf side_sensor) by (apply bare_wf, mexp_rot). split; [exact Ws|].
  eexists. eexists. split; [reflexivity|].
  assert (Wc : forall x, se3_wf (bare (fst (circling x)) (snd (circling x)))) by (intro x; apply bare_wf, mexp_rot).
  split; [cbn [map]; repeat (constructor; [apply Wc|]); constructor|].
  split; [intros g Hg; apply in_map_iff in Hg as (y & <- & _); reflexivity|].
  split; [cbn [map]; repeat (constructor; [apply se3_mul_match; try apply Ws; try apply Wc; reflexivity|]); constructor|].
  split; [intros g Hg; apply in_map_iff in Hg as (y & <- & _); reflexivity|].
  split; [eexists; cbn [map]; repeat (constructor; [apply se3_mul_match; try apply Ws; try apply Wc; reflexivity|]); constructor|].
  destruct c68_steady_example as (B & Hm & Hv & H0 & F & G & _). change (after_dappends _ dc_empty) with circle_curve.
  pose proof (d_built_inv _ B) as I. destruct circle_built as [_ E].
  destruct (d_control_pts circle_curve) as [|a [|b [|c [|d r]]]] eqn:Q; cbn [map] in E, F; try discriminate E.
  inversion F as [|? ? ? ? Oa F1]; subst. inversion F1 as [|? ? ? ? Ob F2]; subst.
  assert (N : d_neighbours circle_curve a b) by (exists [], [c]; exact Q).
  destruct (d_neighbours_facts _ a b I N) as (Wa & Wb & sg & _ & (_ & _ & _ & _ & Rl & _)).
  exists a, b, c, (orig_from_dest sg). split; [reflexivity|]. split; [exact Rl|].
  assert (Gs : good_step (V3 0 0 1) 0 1) by (apply G; left; reflexivity).
  destruct (log_on_screw _ _ _ _ 0 1 _ _ _ Hm Wa Wb Rl Oa Ob Gs) as [-> _]. cbn [trot ttrans].
  replace (1 - 0) with 1 by ring. rewrite !vscale_1. rewrite norm_unit_z. pose proof three_lt_PI. split; [lra|].
  replace (norm2 (V3 0 0 1)) with 1 by (unfold norm2, dot; cbn; ring). split; [right; rewrite tiny_val; lra|].
  unfold point_velocity, norm, norm2, side_sensor, bare, cross, vadd, dot. cbn.
  replace ((1 + (0 * 0 - 1 * -1)) * (1 + (0 * 0 - 1 * -1)) + (0 + (1 * 0 - 0 * 0)) * (0 + (1 * 0 - 0 * 0)) + (0 + (0 * -1 - 0 * 0)) * (0 + (0 * -1 - 0 * 0))) with (2 * 2) by ring.
  apply sqrt_square. lra.
Qed.
