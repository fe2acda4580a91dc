(** Motions at a constant velocity. *)
From Verif Require Import Cpp UuidModel RotSpec GeomModel DerivSpec FrameSpec LieSpec JetModel JetSpec CurveModel CurveSpec.
Local Open Scope R_scope.

Section Motions.
Context {G T : Type} (o : lie_ops G T) (c : lie_calc G T).
(** The motion [P] has the velocity [v] all the time. *)
Definition steady (P : R -> G) (v : T) : Prop := forall x,
  well_formed c (P x) /\ same_frames o (P x) (P 0) /\ left_velocity c P x v.
(** The two-jet of something that is at [P x] and whose place [x] on the motion changes
    with the speed [x'] and the acceleration [x'']. *)
Definition rider (P : R -> G) (v : T) (x x' x'' : R) : jet_l G T := JetL (P x) (t_scale o x' v) (t_scale o x'' v).
End Motions.

(** A polynomial of degree at most five, with its first two derivatives. *)
Definition quintic_plan (f f' f'' : R -> R) : Prop :=
  (exists c0 c1 c2 c3 c4 c5, forall t, f t = quintic c0 c1 c2 c3 c4 c5 t) /\
  (forall t, derivable_pt_lim f t (f' t)) /\ (forall t, derivable_pt_lim f' t (f'' t)).

(** ** Changes of frames and clocks *)
Section Changes.
Context {G T : Type} (o : lie_ops G T).
(** The jet [j'] is [j] as seen in another reference frame: [g] is the pose of the old
    reference frame in the new one, and the derivatives are those of the point frame. *)
Definition seen_from (g : G) (j j' : jet_l G T) : Prop :=
  g_mul o (frame_from_ref j) g = Ok (frame_from_ref j') /\
  d_frame_from_ref j' = d_frame_from_ref j /\ d2_frame_from_ref j' = d2_frame_from_ref j.
(** The jet [j'] is that of another frame, fixed to the point frame by [h]. *)
Definition carried_by (h : G) (j j' : jet_l G T) : Prop :=
  g_mul o h (frame_from_ref j) = Ok (frame_from_ref j') /\
  d_frame_from_ref j' = g_adjoint_times o h (d_frame_from_ref j) /\
  d2_frame_from_ref j' = g_adjoint_times o h (d2_frame_from_ref j).
(** The jet [j'] is [j] on a clock that is faster by the factor [rate]. *)
Definition on_clock (rate : R) (j j' : jet_l G T) : Prop :=
  frame_from_ref j' = frame_from_ref j /\
  d_frame_from_ref j' = t_scale o (/ rate) (d_frame_from_ref j) /\
  d2_frame_from_ref j' = t_scale o (/ rate^2) (d2_frame_from_ref j).
(** The control points of one curve correspond to those of another one. *)
Definition correspond (clock : R -> R) (rel : jet_l G T -> jet_l G T -> Prop) (k k' : tcurve G T) : Prop :=
  Forall2 (fun p p' => c_time p' = clock (c_time p) /\ rel (c_point p) (c_point p')) (control_pts k) (control_pts k').
(** So do the results of queries. *)
Definition answer (clock : R -> R) (rel : jet_l G T -> jet_l G T -> Prop) (k k' : tcurve G T) : Prop := forall t,
  (forall j, tc_point_at o k t = Ok j -> exists j', tc_point_at o k' (clock t) = Ok j' /\ rel j j') /\
  (tc_point_at o k t = Throw <-> tc_point_at o k' (clock t) = Throw).
End Changes.

(** ** How far an SE3 curve may be from the ideal at a time *)
(** [s] is the segment of the curve for the time [t], and [l] its increments there. *)
Definition increments_at (k : tcurve se3 tan6) (t : R) (l : list tan6) : Prop :=
  exists a b s m, neighbours k a b /\ c_time a <= t <= c_time b /\ In s (segments k) /\ joins se3_ops a b s /\
    motion se3_ops (c_point a) (c_point b) m /\ l = increments (curve s) m ((t - c_time a) / (c_time b - c_time a)).
(** No increment has a tiny rotation. *)
Definition none_tiny (l : list tan6) : Prop := Forall (fun v => plain_angle (norm2 (trot v))) l.

(** ** Going back *)
(** The jet [j'] is that of the same motion run backwards. *)
Definition backwards (j j' : jet_l so3 vec3) : Prop :=
  frame_from_ref j' = frame_from_ref j /\ d_frame_from_ref j' = vneg (d_frame_from_ref j) /\ d2_frame_from_ref j' = d2_frame_from_ref j.
(** The curve [k'] has the control points of [k] in the opposite order and times. *)
Definition turned_round (k k' : tcurve so3 vec3) : Prop :=
  Forall2 (fun p p' => c_time p' = - c_time p /\ backwards (c_point p) (c_point p')) (control_pts k) (rev (control_pts k')).
