(** Specification of the wire forms of jets, curves, trajectories and view primitives. *)
From Coq Require Import Ascii.
From Verif Require Import Cpp UuidModel UuidSpec RotSpec GeomModel TransProtoModel TransProtoSpec FrameSpec LieSpec JetModel JetSpec
  CurveModel CurveSpec DCurveSpec TimeModel StateModel StateSpec CurveProtoModel.
Local Open Scope R_scope.

(** Frames hold genuine ids. *)
Definition so3_ids (g : so3) : Prop := uuid_wf (so3_into g) /\ uuid_wf (so3_from g).
Definition se3_ids (g : se3) : Prop := uuid_wf (se3_into g) /\ uuid_wf (se3_from g).

(** [h] is what comes back of the pose [g]: the same pose if its rotation is zero or not
    tiny, and otherwise one that differs by 1e-15 of the translation only. *)
Definition se3_near (g h : se3) : Prop :=
  pose_close (/ 10^15 * norm (translation g)) h g /\ (plain_angle (norm2 (trot (se3_log g))) -> h = g).
Definition plain_pose (g : se3) : Prop := plain_angle (norm2 (trot (se3_log g))).

(** Jets, control points and curves that come back. *)
Definition jet_l_near {T} (j k : jet_l se3 T) : Prop :=
  se3_near (frame_from_ref j) (frame_from_ref k) /\ d_frame_from_ref k = d_frame_from_ref j /\ d2_frame_from_ref k = d2_frame_from_ref j.
Definition jet_r_near {T} (j k : jet_r se3 T) : Prop :=
  se3_near (ref_from_frame j) (ref_from_frame k) /\ d_ref_from_frame k = d_ref_from_frame j /\ d2_ref_from_frame k = d2_ref_from_frame j.
Definition tcurve_near (k k' : tcurve se3 tan6) : Prop :=
  curve_wf se3_ops se3_calc k' /\
  Forall2 (fun p q => c_time q = c_time p /\ jet_l_near (c_point p) (c_point q)) (control_pts k) (control_pts k').
Definition dcurve_near (k k' : dcurve) : Prop :=
  d_built k' /\ Forall2 (fun p q => se3_near (ref_from_control p) (ref_from_control q)) (d_control_pts k) (d_control_pts k').
Definition traj_near (t t' : traj) : Prop := tr_start_time t' = tr_start_time t /\ tcurve_near (tr_curve t) (tr_curve t').

(** Curves whose frames hold genuine ids, and whose poses are all plain. *)
Definition tcurve_ids (k : tcurve se3 tan6) : Prop := forall p, In p (control_pts k) -> se3_ids (frame_from_ref (c_point p)).
Definition tcurve_plain (k : tcurve se3 tan6) : Prop := forall p, In p (control_pts k) -> plain_pose (frame_from_ref (c_point p)).
Definition dcurve_ids (k : dcurve) : Prop := forall p, In p (d_control_pts k) -> se3_ids (ref_from_control p).
Definition dcurve_plain (k : dcurve) : Prop := forall p, In p (d_control_pts k) -> plain_pose (ref_from_control p).

(** A google.protobuf.Timestamp in the range its definition asks for: nanoseconds count
    forward, also before 1970. *)
Definition valid_timestamp (nanos : Z) : Prop := (0 <= nanos < 1000000000)%Z.

(** The payloads of view primitives. *)
Definition payload_ok (p : payload) : Prop :=
  match p with
  | PSE3 g => se3_wf g /\ se3_ids g
  | PSO3 g => so3_wf g /\ so3_ids g
  | PDCurve k => d_built k /\ dcurve_ids k
  | PTCurve k => curve_wf se3_ops se3_calc k /\ tcurve_ids k
  | PTrajectory t => in64 (tr_start_time t) /\ curve_wf se3_ops se3_calc (tr_curve t) /\ tcurve_ids (tr_curve t)
  | PFrame f => uuid_wf f
  | PFramedVector v => uuid_wf (fv_frame v)
  end.
Definition payload_plain (p : payload) : Prop :=
  match p with
  | PSE3 g => plain_pose g
  | PDCurve k => dcurve_plain k
  | PTCurve k => tcurve_plain k
  | PTrajectory t => tcurve_plain (tr_curve t)
  | PSO3 _ | PFrame _ | PFramedVector _ => True
  end.
Definition payload_near (p q : payload) : Prop :=
  match p, q with
  | PSE3 g, PSE3 h => se3_near g h
  | PSO3 g, PSO3 h => h = g
  | PDCurve k, PDCurve k' => dcurve_near k k'
  | PTCurve k, PTCurve k' => tcurve_near k k'
  | PTrajectory t, PTrajectory t' => traj_near t t'
  | PFrame f, PFrame f' => f' = f
  | PFramedVector v, PFramedVector v' => v' = v
  | _, _ => False
  end.
(** What comes back of the name: an empty name is lost. *)
Definition name_back (n n' : option text) : Prop := match n with Some [] | None => n' = None | Some (c :: l) => n' = Some (c :: l) end.
Definition view_near (v v' : view_primitive) : Prop :=
  vp_id v' = vp_id v /\ payload_near (vp_payload v) (vp_payload v') /\ name_back (user_defined_name v) (user_defined_name v') /\
  file_name v' = file_name v /\ line_number v' = line_number v.
Definition view_ok (v : view_primitive) : Prop := uuid_wf (vp_id v) /\ payload_ok (vp_payload v).
