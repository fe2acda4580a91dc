(** Rigid body states and trajectories: C39, C40, C41. *)
From Verif Require Import Cpp UuidModel RotSpec RotProofs GeomModel DerivSpec FrameSpec FrameProofs ScrewSpec LieSpec LieProofs JetModel JetSpec JetLaws JetProofs
  CurveModel CurveSpec TCurveProofs DCurveCases CurveProps TimeModel FloatModel FloatSpec FloatProofs StateModel StateSpec StateProofs TrajProofs.
Local Open Scope R_scope.

(** ** C39 *)
(** After any sequence of setter calls every getter returns what the last call of its
    setter gave, or the value from before if there was none. *)
Theorem c39_setters : forall l s, let s' := after_settings l s in
  final SetPose l (ref_from_body s) (ref_from_body s') /\
  final SetLinearVelocity l (linear_velocity s) (linear_velocity s') /\
  final SetAngularVelocity l (angular_velocity s) (angular_velocity s') /\
  final SetLinearAcceleration l (linear_acceleration s) (linear_acceleration s') /\
  final SetAngularAcceleration l (angular_acceleration s) (angular_acceleration s').
Proof. exact setters. Qed.
Print Assumptions c39_setters.
(** Nothing else is in a state: the pose and the derivatives determine it. *)
Theorem c39_getters_determine : forall a b, ref_from_body a = ref_from_body b -> rs_derivatives a = rs_derivatives b -> a = b.
Proof. exact state_ext. Qed.
Print Assumptions c39_getters_determine.
(** The constructors. *)
Theorem c39_constructors : forall g d,
  ref_from_body (rs_make g d) = g /\ rs_derivatives (rs_make g d) = d /\
  ref_from_body (rs_of_pose g) = g /\ rs_derivatives (rs_of_pose g) = StateDerivatives vzero vzero vzero vzero.
Proof. exact constructors. Qed.
Print Assumptions c39_constructors.
(** identity(frame, frame) has no velocity and is neutral. *)
Theorem c39_identity : forall i, exists e, rs_identity (Some (i, i)) = Ok e /\ state_wf e /\
  rs_derivatives e = StateDerivatives vzero vzero vzero vzero /\ se3_identity (Some (i, i)) = Ok (ref_from_body e) /\
  (forall s, state_wf s -> se3_into (ref_from_body s) = i -> rs_mul e s = Ok s) /\
  (forall s, state_wf s -> se3_from (ref_from_body s) = i -> rs_mul s e = Ok s).
Proof. exact identity_state. Qed.
Print Assumptions c39_identity.
(** a.inverse_times(a * b) is b, and a * a.inverse_times(b) is b. *)
Theorem c39_inverse_times : forall a b, state_wf a -> state_wf b ->
  (se3_from (ref_from_body a) = se3_into (ref_from_body b) -> exists r, rs_mul a b = Ok r /\ rs_inverse_times a r = Ok b) /\
  (se3_into (ref_from_body a) = se3_into (ref_from_body b) -> exists r, rs_inverse_times a b = Ok r /\ rs_mul a r = Ok b) /\
  rs_inverse_times a a = rs_identity (Some (se3_from (ref_from_body a), se3_from (ref_from_body a))).
Proof. exact (fun a b Wa Wb => conj (inverse_times_mul a b Wa Wb) (conj (mul_inverse_times a b Wa Wb) (inverse_times_self a Wa))). Qed.
Print Assumptions c39_inverse_times.
(** Composition and inverse_times give pose, velocity and acceleration of the composed and
    of the relative motion. *)
Theorem c39_motions : forall a b t sa sb, (forall s, se3_wf (a s)) -> (forall s, se3_wf (b s)) -> state_of a t sa -> state_of b t sb ->
  (forall p, (forall s, se3_mul (a s) (b s) = Ok (p s)) -> exists r, rs_mul sa sb = Ok r /\ state_of p t r) /\
  (forall ai p, (forall s, se3_inverse (a s) = Ok (ai s)) -> (forall s, se3_mul (ai s) (b s) = Ok (p s)) ->
     exists r, rs_inverse_times sa sb = Ok r /\ state_of p t r).
Proof.
  exact (fun a b t sa sb Wa Wb Da Db => conj (fun p M => mul_motion a b p t sa sb Wa Wb M Da Db)
    (fun ai p I M => relative_motion a b ai p t sa sb Wa Wb I M Da Db)).
Qed.
Print Assumptions c39_motions.
(** Frames that do not fit are rejected. *)
Theorem c39_frames_checked : forall a b, state_wf a -> state_wf b ->
  se3_into (ref_from_body a) <> null_frame -> se3_into (ref_from_body b) <> null_frame ->
  (se3_from (ref_from_body a) <> se3_into (ref_from_body b) -> rs_mul a b = Throw) /\
  (se3_into (ref_from_body a) <> se3_into (ref_from_body b) -> rs_inverse_times a b = Throw).
Proof. exact mul_frames_checked. Qed.
Print Assumptions c39_frames_checked.

(** A moving robot in the world frame, and a sensor on it. *)
Definition sp_pose (into from : frame) (m : mat3) (v : vec3) : se3 := SE3 (unframed m) v into from.
Lemma sp_pose_wf i f m v : is_rotation m -> frames_ok i f -> se3_wf (sp_pose i f m v).
Proof. intros R F. split; [exact R|]. split; [exact F|]. split; reflexivity. Qed.
Definition sp_world : frame := [1%N].
Definition sp_robot : frame := [2%N].
Definition sp_sensor : frame := [3%N].
Lemma sp_frames : frames_ok sp_world sp_robot /\ frames_ok sp_robot sp_sensor.
Proof. split; split; intro X; discriminate X. Qed.
Definition sp_derivatives : state_derivatives := StateDerivatives (V3 1 2 3) (V3 0 0 1) (V3 4 5 6) (V3 1 0 0).
Definition sp_a : rigid_state := rs_make (sp_pose sp_world sp_robot quarter_z (V3 1 2 3)) sp_derivatives.
Definition sp_b : rigid_state := rs_make (sp_pose sp_robot sp_sensor quarter_z (V3 0 0 1)) sp_derivatives.
Example c39_example : state_wf sp_a /\ state_wf sp_b /\ se3_from (ref_from_body sp_a) = se3_into (ref_from_body sp_b) /\
  se3_into (ref_from_body sp_a) <> null_frame /\ se3_into (ref_from_body sp_b) <> null_frame /\
  se3_into (ref_from_body sp_a) <> se3_into (ref_from_body sp_b) /\
  final SetLinearVelocity [SetLinearVelocity vzero; SetPose (ref_from_body sp_b); SetLinearVelocity (V3 7 8 9)] vzero (V3 7 8 9).
Proof.
  destruct sp_frames as [F1 F2]. split; [apply sp_pose_wf; [apply quarter_z_rot|exact F1]|]. split; [apply sp_pose_wf; [apply quarter_z_rot|exact F2]|].
  split; [reflexivity|]. split; [intro X; discriminate X|]. split; [intro X; discriminate X|]. split; [intro X; discriminate X|].
  left. exists [SetLinearVelocity vzero; SetPose (ref_from_body sp_b)], []. split; [reflexivity|]. intros y [].
Qed.

(** ** C40 *)
(** One append to a trajectory with the control points [taken]: undefined exactly if the
    duration from the start does not fit and the body frame is right; accepted exactly if
    the point is acceptable; otherwise it throws.  Unless accepted, nothing changes. *)
Theorem c40_append : forall t taken p, consists_of t taken -> state_wf (state p) ->
  (snd (tr_append p t) = UB <-> ~ tr_defined taken p /\
     exists l b, taken = l ++ [b] /\ se3_from (ref_from_body (state p)) = se3_from (ref_from_body (state b))) /\
  (snd (tr_append p t) = Ok tt <-> tr_defined taken p /\ tr_acceptable taken p) /\
  (tr_defined taken p -> tr_acceptable taken p -> consists_of (fst (tr_append p t)) (taken ++ [p])) /\
  (snd (tr_append p t) <> Ok tt -> fst (tr_append p t) = t).
Proof. exact tr_append_spec. Qed.
Print Assumptions c40_append.

(** After any history of appends, failed or not, the trajectory consists of the acceptable
    points in order; their timestamps strictly increase and their frames agree. *)
Theorem c40_history : forall ps t, tr_history ps t -> Forall (fun p => state_wf (state p)) ps ->
  exists taken, tr_takes ps taken /\ consists_of t taken /\ hd_error taken = hd_error ps /\
    StronglySorted (fun a b => at_time a < at_time b)%Z taken /\
    (forall p, In p taken -> tr_reference_frame t = Ok (se3_into (ref_from_body (state p))) /\ tr_body_frame t = Ok (se3_from (ref_from_body (state p)))).
Proof. exact history_facts. Qed.
Print Assumptions c40_history.
Theorem c40_history_determines : forall ps a b, tr_takes ps a -> tr_takes ps b -> a = b.
Proof. exact tr_takes_fun. Qed.
Print Assumptions c40_history_determines.

(** Appending a list appends its elements until one fails; the ones before it stay.
    Construction from a list succeeds exactly if all are taken. *)
Theorem c40_append_list : forall ps t taken, consists_of t taken -> Forall (fun p => state_wf (state p)) ps ->
  (exists t', tr_append_list ps t = (t', Ok tt) /\ consists_of t' (taken ++ ps)) \/
  (exists l p r t', ps = l ++ p :: r /\ consists_of t' (taken ++ l) /\ snd (tr_append p t') <> Ok tt /\ tr_append_list ps t = (t', snd (tr_append p t'))).
Proof. exact append_list. Qed.
Print Assumptions c40_append_list.
Theorem c40_construction : forall ps, Forall (fun p => state_wf (state p)) ps ->
  (tr_takes ps ps -> exists t, tr_make ps = Ok t /\ consists_of t ps) /\
  (~ tr_takes ps ps -> forall t, tr_make ps <> Ok t).
Proof. exact (fun ps W => conj (make_whole ps W) (make_not_whole ps W)). Qed.
Print Assumptions c40_construction.

(** A query is undefined exactly if the duration from the start does not fit; it throws
    exactly if there are fewer than two points or the time in seconds is outside; inside it
    gives a genuine state with the frames of the trajectory. *)
Theorem c40_point_at : forall ps t taken x, tr_takes ps taken -> consists_of t taken ->
  (~ in64 (x - tr_start_time t) -> tr_point_at t x = UB) /\
  (in64 (x - tr_start_time t) ->
    (within (tr_start_time t) taken x -> exists s, tr_point_at t x = Ok s /\ state_wf s /\ forall p, In p taken -> same_poses_frames s (state p)) /\
    (~ within (tr_start_time t) taken x -> tr_point_at t x = Throw)).
Proof. exact (fun ps t taken x T C => conj (point_at_ub t x) (point_at_ok ps t taken x T C)). Qed.
Print Assumptions c40_point_at.
(** Timestamps from the first to the last control point are inside; if all durations are
    at most 2^23 seconds, no others are. *)
Theorem c40_inside : forall ps t a l b x, tr_takes ps (a :: l ++ [b]) -> consists_of t (a :: l ++ [b]) -> in64 (x - tr_start_time t) ->
  ((at_time a <= x <= at_time b)%Z -> within (tr_start_time t) (a :: l ++ [b]) x) /\
  ((Z.abs (x - at_time a) <= PRECISE)%Z -> (at_time b - at_time a <= PRECISE)%Z -> within (tr_start_time t) (a :: l ++ [b]) x -> (at_time a <= x <= at_time b)%Z).
Proof. exact inside_within. Qed.
Print Assumptions c40_inside.
Theorem c40_from_start : forall t d, in64 d -> tr_point_from_start t d = tr_point_at t (tr_start_time t + d).
Proof. exact from_start. Qed.
Print Assumptions c40_from_start.

(** A query at a control time returns the control state: the first one always; all of them
    if the relative rotations of neighbours are zero or not tiny; and in general up to
    1e-15 of the distance in the position only. *)
Theorem c40_control_points : forall ps t taken p, tr_takes ps taken -> consists_of t taken -> exact_changes taken -> (2 <= length taken)%nat -> In p taken ->
  tr_point_at t (at_time p) = Ok (state p).
Proof. exact control_states. Qed.
Print Assumptions c40_control_points.
Theorem c40_first_control_point : forall ps t a b l, tr_takes ps (a :: b :: l) -> consists_of t (a :: b :: l) -> tr_point_at t (at_time a) = Ok (state a).
Proof. exact first_state. Qed.
Print Assumptions c40_first_control_point.
Theorem c40_control_points_close : forall ps t l a b r m, tr_takes ps (l ++ a :: b :: r) -> consists_of t (l ++ a :: b :: r) -> pose_change a b m ->
  exists s, tr_point_at t (at_time b) = Ok s /\ rs_derivatives s = rs_derivatives (state b) /\
    pose_close (/ 10^15 * norm (translation m)) (ref_from_body s) (ref_from_body (state b)) /\
    (plain_angle (norm2 (trot (se3_log m))) -> s = state b).
Proof. exact close_states. Qed.
Print Assumptions c40_control_points_close.

(** The empty trajectory: frames throw, the end is undefined. *)
Theorem c40_empty : forall t, consists_of t [] -> tr_reference_frame t = Throw /\ tr_body_frame t = Throw /\ tr_time_duration t = UB /\ tr_end_time t = UB.
Proof. exact frames_none. Qed.
Print Assumptions c40_empty.

(** So is one made from an empty list, which starts at the epoch. *)
Theorem c40_new : exists t, tr_make [] = Ok t /\ consists_of t [] /\ tr_start_time t = 0%Z.
Proof. exact new_trajectory. Qed.
Print Assumptions c40_new.

(** A trajectory made from a curve is not checked: its first time need not be its start. *)
Theorem c40_curve_start_refuted : exists (k : tcurve se3 tan6) x, curve_wf se3_ops se3_calc k /\ (2 <= length (control_pts k))%nat /\
  tr_point_at (tr_of_curve k x) (tr_start_time (tr_of_curve k x)) = Throw.
Proof.
  destruct cp_move_wf as [W E]. exists cp_move_curve, 0%Z. split; [exact W|]. split; [rewrite E; cbn; lia|].
  unfold tr_point_at. cbn [tr_of_curve tr_start_time tr_start tr_curve]. change (sub64 0 0) with (Ok 0%Z). cbn [obind].
  rewrite (proj2 (proj1 (point_at_throws se3_laws cp_move_curve (seconds 0) (curve_inv _ W)))); [reflexivity|].
  left. intros (a & l & b & X & B). rewrite E in X. injection X as <- _. rewrite seconds_zero in B. cbn in B. lra.
Qed.
Print Assumptions c40_curve_start_refuted.

(** Three points one second apart, of a robot that does not turn. *)
Definition sp_point (x : Z) (v : vec3) : tpoint := TPoint x (rs_make (sp_pose sp_world sp_robot mid v) (StateDerivatives (V3 1 0 0) vzero (V3 0 1 0) vzero)).
Lemma sp_point_wf x v : state_wf (state (sp_point x v)).
Proof. apply sp_pose_wf; [apply rot_mid|apply sp_frames]. Qed.
Definition sp_points : list tpoint := [sp_point 5 (V3 1 2 3); sp_point 1000000005 (V3 2 2 3); sp_point 2000000005 (V3 4 2 3)].
Example c40_example : Forall (fun p => state_wf (state p)) sp_points /\ tr_takes sp_points sp_points /\ exact_changes sp_points /\
  (exists t, tr_make sp_points = Ok t /\ consists_of t sp_points) /\ exists m, pose_change (sp_point 5 (V3 1 2 3)) (sp_point 1000000005 (V3 2 2 3)) m.
Proof.
  assert (W : Forall (fun p => state_wf (state p)) sp_points) by (repeat (constructor; [apply sp_point_wf|]); constructor).
  assert (T : tr_takes sp_points sp_points).
  { apply precise_taken.
    - repeat constructor.
    - intros a b [<-|[<-|[<-|[]]]] [<-|[<-|[<-|[]]]]; split; reflexivity.
    - intros a p X [<-|[<-|[<-|[]]]]; injection X as <-; vm_compute; discriminate. }
  split; [exact W|]. split; [exact T|]. split; [|split; [apply (make_whole _ W T)|]].
  - intros l a b r m E (bi & Ei & Em).
    assert (In a sp_points /\ In b sp_points) as [Ia Ib].
    { rewrite E. split; apply in_or_app; right; [left; reflexivity|right; left; reflexivity]. }
    assert (Wm : se3_wf m /\ rotation_matrix (rotation m) = mid).
    { assert (Wa : state_wf (state a)) by (rewrite Forall_forall in W; apply W, Ia). assert (Wb : state_wf (state b)) by (rewrite Forall_forall in W; apply W, Ib).
      destruct (inverse_ok _ _ se3_laws _ Wb) as (h & Eh & Wh & _). cbn [g_inverse se3_ops] in Eh. rewrite Ei in Eh. injection Eh as <-.
      split; [apply (mul_wf _ _ se3_laws bi _ m Wh Wa Em)|].
      clear -Ia Ib Ei Em. destruct Ia as [<-|[<-|[<-|[]]]], Ib as [<-|[<-|[<-|[]]]]; cbn in Ei; injection Ei as <-; cbn in Em; injection Em as <-;
        cbn; rewrite ?mtrans_mid, ?mmul_1_l; reflexivity. }
    left. rewrite (log_id m (proj1 Wm) (proj2 Wm)). unfold norm2. cbn [trot]. vsimpl. ring.
  - eexists _, _. split; reflexivity.
Qed.

(** ** C41 *)
(** Strictly increasing timestamps with the same frames, none more than 2^23 seconds (97
    days) after the first, are accepted; end_time() is the last timestamp or one nanosecond
    less, and can be queried. *)
Theorem c41_accepted : forall ps, Forall (fun p => state_wf (state p)) ps -> StronglySorted (fun a b => at_time a < at_time b)%Z ps ->
  (forall a b, In a ps -> In b ps -> same_poses_frames (state a) (state b)) ->
  (forall a p, hd_error ps = Some a -> In p ps -> (at_time p - at_time a <= PRECISE)%Z) ->
  tr_takes ps ps /\ exists t, tr_make ps = Ok t /\ consists_of t ps.
Proof. exact (fun ps W S F P => conj (precise_taken ps S F P) (make_whole ps W (precise_taken ps S F P))). Qed.
Print Assumptions c41_accepted.
Theorem c41_end_time : forall ps t a l b, tr_takes ps (a :: l ++ [b]) -> consists_of t (a :: l ++ [b]) -> in64 (at_time a) -> in64 (at_time b) ->
  (at_time b - at_time a <= PRECISE)%Z ->
  exists e, tr_end_time t = Ok e /\ (e = at_time b \/ e = at_time b - 1)%Z /\ (2 ^ 52 < at_time b - at_time a -> e = at_time b)%Z /\
    exists s, tr_point_at t e = Ok s /\ forall p, In p (a :: l ++ [b]) -> same_poses_frames s (state p).
Proof. exact end_precise. Qed.
Print Assumptions c41_end_time.
(** In general the end is the start plus the round trip of the duration, see C11. *)
Theorem c41_end_round_trip : forall t l b, consists_of t (l ++ [b]) -> in64 (at_time b - tr_start_time t) ->
  tr_time_duration t = as_duration (as_seconds (at_time b - tr_start_time t)) /\
  tr_end_time t = (let* d := as_duration (as_seconds (at_time b - tr_start_time t)) in add64 (tr_start_time t) d).
Proof. exact end_spec. Qed.
Print Assumptions c41_end_round_trip.

(** That end_time() is the last timestamp is false: points at 0 ns and 15 ns. *)
Theorem c41_end_refuted : exists ps t b, Forall (fun p => state_wf (state p)) ps /\ tr_make ps = Ok t /\ last ps b = b /\ In b ps /\
  tr_end_time t = Ok (at_time b - 1)%Z.
Proof.
  set (ps := [sp_point 0 vzero; sp_point 15 (V3 1 0 0)]).
  assert (W : Forall (fun p => state_wf (state p)) ps) by (repeat (constructor; [apply sp_point_wf|]); constructor).
  assert (T : tr_takes ps ps).
  { apply precise_taken.
    - repeat constructor.
    - intros a b [<-|[<-|[]]] [<-|[<-|[]]]; split; reflexivity.
    - intros a p X [<-|[<-|[]]]; injection X as <-; vm_compute; discriminate. }
  destruct (make_whole ps W T) as (t & E & C). exists ps, t, (sp_point 15 (V3 1 0 0)). split; [exact W|]. split; [exact E|]. split; [reflexivity|].
  split; [right; left; reflexivity|]. pose proof (proj1 C _ eq_refl) as S0.
  destruct (end_spec t [sp_point 0 vzero] (sp_point 15 (V3 1 0 0)) C) as [_ ->]; rewrite S0; [vm_compute; split; discriminate|vm_compute; reflexivity].
Qed.
Print Assumptions c41_end_refuted.
(** That strictly increasing timestamps are accepted is false: beyond 2^23 seconds two
    timestamps one nanosecond apart can have the same time in seconds. *)
Theorem c41_accepted_refuted : exists ps, Forall (fun p => state_wf (state p) /\ in64 (at_time p)) ps /\ StronglySorted (fun a b => at_time a < at_time b)%Z ps /\
  (forall a b, In a ps -> In b ps -> same_poses_frames (state a) (state b)) /\ tr_make ps = Throw.
Proof.
  set (p0 := sp_point 0 vzero). set (p1 := sp_point (PRECISE + 1) (V3 1 0 0)). set (p2 := sp_point (PRECISE + 2) (V3 2 0 0)).
  exists [p0; p1; p2].
  assert (I : forall z, (0 <= z <= PRECISE + 2)%Z -> in64 z) by (unfold PRECISE, in64, INT64_MIN, INT64_MAX; lia).
  assert (W : forall x v, state_wf (state (sp_point x v))) by exact sp_point_wf.
  split. { repeat (constructor; [split; [apply W|apply I; vm_compute; split; discriminate]|]). constructor. }
  split. { repeat constructor. }
  split. { intros a b [<-|[<-|[<-|[]]]] [<-|[<-|[<-|[]]]]; split; reflexivity. }
  assert (W2 : Forall (fun p => state_wf (state p)) [p0; p1]) by (repeat (constructor; [apply W|]); constructor).
  assert (T : tr_takes [p0; p1] [p0; p1]).
  { apply takes_whole. intros l p r E. destruct l as [|a [|b l]].
    - injection E as <- _. split; [intros a X; discriminate X|left; reflexivity].
    - injection E as <- <- _. split; [intros a X; injection X as <-; apply I; vm_compute; split; discriminate|].
      right. exists p0, [], p0. split; [reflexivity|]. split; [reflexivity|]. split; [|split; reflexivity].
      apply seconds_order'; [apply I; vm_compute; split; discriminate|apply I; vm_compute; split; discriminate|vm_compute; reflexivity].
    - destruct l; discriminate E. }
  destruct (make_whole _ W2 T) as (t & E & C). unfold tr_make, construct, tr_append_list in E |- *.
  change [p0; p1; p2] with ([p0; p1] ++ [p2]). rewrite for_each_snoc. destruct (for_each tr_append [p0; p1] tr_empty) as [s [[]| |]]; try discriminate E.
  injection E as ->. pose proof (proj1 C _ eq_refl) as S0.
  destruct (tr_append_next t [p0] p1 p2 C (W _ _)) as (_ & _ & _ & A). rewrite A; [reflexivity| | |].
  - intro X. apply X. reflexivity.
  - rewrite S0. apply I. vm_compute. split; discriminate.
  - rewrite S0. intros [L _]. revert L. apply same_seconds. vm_compute. reflexivity.
Qed.
Print Assumptions c41_accepted_refuted.
Example c41_example : Forall (fun p => state_wf (state p)) sp_points /\ StronglySorted (fun a b => at_time a < at_time b)%Z sp_points /\
  (forall a b, In a sp_points -> In b sp_points -> same_poses_frames (state a) (state b)) /\
  (forall a p, hd_error sp_points = Some a -> In p sp_points -> (at_time p - at_time a <= PRECISE)%Z) /\
  exists t, tr_make sp_points = Ok t /\ tr_start_time t = 5%Z /\ tr_end_time t = Ok 2000000005%Z.
Proof.
  destruct c40_example as (W & T & _ & (t & E & C) & _). split; [exact W|]. split; [repeat constructor|].
  split. { intros a b [<-|[<-|[<-|[]]]] [<-|[<-|[<-|[]]]]; split; reflexivity. }
  split. { intros a p X [<-|[<-|[<-|[]]]]; injection X as <-; vm_compute; discriminate. }
  exists t. split; [exact E|]. pose proof (proj1 C _ eq_refl) as S0. split; [exact S0|].
  destruct (end_spec t [sp_point 5 (V3 1 2 3); sp_point 1000000005 (V3 2 2 3)] (sp_point 2000000005 (V3 4 2 3)) C) as [_ ->];
    rewrite S0; [vm_compute; split; discriminate|vm_compute; reflexivity].
Qed.
