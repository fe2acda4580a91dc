(** Specification vocabulary for rigid body states and trajectories. *)
From Coq Require Export Sorted.
From Verif Require Import Cpp UuidModel RotSpec GeomModel DerivSpec FrameSpec LieSpec JetModel JetSpec CurveModel CurveSpec
  TimeModel FloatModel FloatSpec StateModel.
Local Open Scope R_scope.

(** ** States *)
(** Calls of the setters. *)
Inductive setting :=
  | SetPose (g : se3) | SetLinearVelocity (v : vec3) | SetAngularVelocity (v : vec3)
  | SetLinearAcceleration (v : vec3) | SetAngularAcceleration (v : vec3).
Definition set (s : rigid_state) (x : setting) : rigid_state :=
  match x with
  | SetPose g => rs_set_ref_from_body s g
  | SetLinearVelocity v => rs_set_linear_velocity s v
  | SetAngularVelocity v => rs_set_angular_velocity s v
  | SetLinearAcceleration v => rs_set_linear_acceleration s v
  | SetAngularAcceleration v => rs_set_angular_acceleration s v
  end.
Definition after_settings (l : list setting) (s : rigid_state) : rigid_state := fold_left set l s.
(** [final l a x]: among the settings [l], the last one of the kind [a] gives the value [x];
    [old] if there is none of that kind. *)
Definition final {A} (a : A -> setting) (l : list setting) (old x : A) : Prop :=
  (exists l1 l2, l = l1 ++ a x :: l2 /\ forall y, ~ In (a y) l2) \/ (x = old /\ forall y, ~ In (a y) l).

(** Genuine states. *)
Definition state_wf (s : rigid_state) : Prop := se3_wf (ref_from_body s).
(** The state holds pose, velocity and acceleration, in body coordinates, of the motion
    [p] at time [t]. *)
Definition state_of (p : R -> se3) (t : R) (s : rigid_state) : Prop := describes_r se3_calc p t (ref_from_body_two_jet s).
Definition same_poses_frames (a b : rigid_state) : Prop :=
  se3_into (ref_from_body a) = se3_into (ref_from_body b) /\ se3_from (ref_from_body a) = se3_from (ref_from_body b).

(** ** Trajectories *)
(** The time of a control point, in seconds after the first one, as a double. *)
Definition since (start : Z) (p : tpoint) : R := val (as_seconds (at_time p - start)).
(** When the next point is taken: the first always; then those with the same frames whose
    time in seconds is greater. *)
Definition follows (start : Z) (b p : tpoint) : Prop :=
  since start b < since start p /\ same_poses_frames (state p) (state b).
Definition tr_acceptable (taken : list tpoint) (p : tpoint) : Prop :=
  taken = [] \/ exists a l b, hd_error taken = Some a /\ taken = l ++ [b] /\ follows (at_time a) b p.
(** The difference of the times fits into a Duration. *)
Definition tr_defined (taken : list tpoint) (p : tpoint) : Prop := forall a, hd_error taken = Some a -> in64 (at_time p - at_time a).
Inductive tr_takes : list tpoint -> list tpoint -> Prop :=
  | tr_takes_nil : tr_takes [] []
  | tr_takes_yes ps taken p : tr_takes ps taken -> tr_defined taken p -> tr_acceptable taken p -> tr_takes (ps ++ [p]) (taken ++ [p])
  | tr_takes_no ps taken p : tr_takes ps taken -> ~ tr_acceptable taken p -> tr_takes (ps ++ [p]) taken.
(** A trajectory that was default constructed and then received append calls for [ps], all
    of them defined; calls that threw were caught by the caller. *)
Inductive tr_history : list tpoint -> traj -> Prop :=
  | trh_nil : tr_history [] tr_empty
  | trh_append ps t p : tr_history ps t -> snd (tr_append p t) <> UB -> tr_history (ps ++ [p]) (fst (tr_append p t)).
(** A control point of the curve is the one made of [p]. *)
Definition holds (start : Z) (p : tpoint) (c : control se3 tan6) : Prop :=
  c_time c = since start p /\ left_two_jet se3_ops (ref_from_body_two_jet (state p)) = Ok (c_point c).
(** The trajectory has exactly the control points [taken]. *)
Definition consists_of (t : traj) (taken : list tpoint) : Prop :=
  (forall a, hd_error taken = Some a -> tr_start_time t = at_time a) /\
  Forall2 (holds (tr_start_time t)) taken (control_pts (tr_curve t)) /\ curve_wf se3_ops se3_calc (tr_curve t) /\
  Forall (fun p => state_wf (state p)) taken.
(** The motion between two control points: the earlier pose seen from the later one. *)
Definition pose_change (a b : tpoint) (m : se3) : Prop :=
  exists bi, se3_inverse (ref_from_body (state b)) = Ok bi /\ se3_mul bi (ref_from_body (state a)) = Ok m.
Definition exact_changes (taken : list tpoint) : Prop :=
  forall l a b r m, taken = l ++ a :: b :: r -> pose_change a b m -> plain_angle (norm2 (trot (se3_log m))).
(** There are two control points or more, and the time in seconds of [x] is between those
    of the first and the last one. *)
Definition within (start : Z) (taken : list tpoint) (x : Z) : Prop :=
  exists a l b, taken = a :: l ++ [b] /\ 0 <= val (as_seconds (x - start)) <= since start b.
(** About 97 days. *)
Definition PRECISE : Z := 2 ^ 23 * 10 ^ 9.
