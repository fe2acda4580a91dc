(** Specification vocabulary for distance curves. *)
From Verif Require Import Cpp UuidModel RotSpec GeomModel FrameSpec LieSpec JetModel CurveModel CurveSpec.
Local Open Scope R_scope.

Definition framed (g : se3) : Prop := se3_into g <> null_frame.
(** Which control points a curve takes.  If its first point is framed, a point must have
    the frames of the first one.  Otherwise the only requirement is that a framed point
    after a framed one has the same reference frame. *)
Definition d_acceptable (taken : list se3) (g : se3) : Prop :=
  taken = [] \/ exists f m l b, taken = f :: m /\ taken = l ++ [b] /\
    (framed f -> same_frames se3_ops g f) /\ (framed b -> framed g -> se3_into b = se3_into g).
Inductive d_takes : list se3 -> list se3 -> Prop :=
  | d_takes_nil : d_takes [] []
  | d_takes_yes gs taken g : d_takes gs taken -> d_acceptable taken g -> d_takes (gs ++ [g]) (taken ++ [g])
  | d_takes_no gs taken g : d_takes gs taken -> ~ d_acceptable taken g -> d_takes (gs ++ [g]) taken.
(** The curve after the calls append(g) for all [g] in [gs], where calls that throw are
    caught by the caller. *)
Fixpoint after_dappends (gs : list se3) (k : dcurve) : dcurve :=
  match gs with
  | [] => k
  | g :: gs' => after_dappends gs' (fst (dc_append g k))
  end.
(** The pose of [b] as seen from [a]. *)
Definition relative (a b m : se3) : Prop := exists ai, se3_inverse a = Ok ai /\ se3_mul ai b = Ok m.
(** The segment [s] joins the control points [a] and [b], and the arc length grows by the
    length of the relative transform. *)
Definition d_joins (a b : dcontrol) (s : dsegment) : Prop :=
  orig_arc_length s = arc_length a /\ dest_arc_length s = arc_length b /\
  ref_from_orig s = ref_from_control a /\ ref_from_dest s = ref_from_control b /\
  relative (ref_from_control a) (ref_from_control b) (orig_from_dest s) /\
  arc_length b = arc_length a + se3_arc_length (orig_from_dest s).
(** A distance curve built through the interface from genuine poses. *)
Definition d_built (k : dcurve) : Prop := exists gs, Forall se3_wf gs /\ k = after_dappends gs dc_empty.
(** Neighbouring control points, and the points with their relative pose. *)
Definition d_neighbours (k : dcurve) (a b : dcontrol) : Prop := exists l r, d_control_pts k = l ++ a :: b :: r.
(** Where a pose puts the origin. *)
Definition position (g : se3) : vec3 := translation g.
(** All relative rotations are zero or not tiny, so exp(log) is exact on them. *)
Definition d_plain (k : dcurve) : Prop := forall a b m, d_neighbours k a b ->
  relative (ref_from_control a) (ref_from_control b) m -> plain_angle (norm2 (trot (se3_log m))).
