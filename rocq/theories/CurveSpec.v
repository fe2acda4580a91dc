(** Specification vocabulary for curves. *)
From Coq Require Export Sorted.
From Verif Require Import Cpp UuidModel RotSpec GeomModel DerivSpec FrameSpec LieSpec JetModel JetSpec CurveModel.
Local Open Scope R_scope.

(** ** Quintic polynomials *)
Definition quintic (c0 c1 c2 c3 c4 c5 t : R) : R :=
  c0 + c1 * t + c2 * t^2 + c3 * t^3 + c4 * t^4 + c5 * t^5.
(** The values [v0 v1], slopes [d0 d1] and second derivatives [e0 e1] of a function at 0 and 1. *)
Definition hermite_data (f : R -> R) (v0 d0 e0 v1 d1 e1 : R) : Prop :=
  exists f' : R -> R, (forall t, derivable_pt_lim f t (f' t)) /\
    f 0 = v0 /\ f' 0 = d0 /\ derivable_pt_lim f' 0 e0 /\ f 1 = v1 /\ f' 1 = d1 /\ derivable_pt_lim f' 1 e1.
(** The three numbers are a smooth function of the time and its first two derivatives. *)
Definition jet_of_function (q : R -> poly_coeffs) : Prop := forall t,
  derivable_pt_lim (fun s => pc_a (q s)) t (pc_da (q t)) /\
  derivable_pt_lim (fun s => pc_da (q s)) t (pc_d2a (q t)) /\
  exists d3, derivable_pt_lim (fun s => pc_d2a (q s)) t d3.

Section Curves.
Context {G T : Type} (o : lie_ops G T) (c : lie_calc G T).

(** Two transforms have the same frames. *)
Definition same_frames (a b : G) : Prop := g_into o a = g_into o b /\ g_from o a = g_from o b.

(** A segment between genuine end points with the same frames. *)
Definition segment_wf (s : tcurve_segment G T) : Prop :=
  jet_l_wf c (seg_orig s) /\ jet_l_wf c (seg_dest s) /\
  same_frames (frame_from_ref (seg_orig s)) (frame_from_ref (seg_dest s)).
(** The motion from a to b, as the transform b a^-1. *)
Definition motion (a b : jet_l G T) (m : G) : Prop :=
  exists ai, g_inverse o (frame_from_ref a) = Ok ai /\ g_mul o (frame_from_ref b) ai = Ok m.
(** exp and log are exact on that motion. *)
Definition exact_motion (a b : jet_l G T) : Prop := forall m, motion a b m -> exact_log c m.
(** No increment of the segment at the normalized time [t] is affected by the truncated
    series of small rotations. *)
Definition exact_at (s : tcurve_segment G T) (t : R) : Prop :=
  (forall m, motion (seg_orig s) (seg_dest s) m -> exact_exp c (pc_a (q_dest_from_orig t)) (g_log o m)) /\
  exact_exp c (pc_a (q_d_orig t)) (d_frame_from_ref (seg_orig s)) /\
  exact_exp c (pc_a (q_d_dest t)) (d_frame_from_ref (seg_dest s)) /\
  exact_exp c (pc_a (q_d2_orig t)) (d2_frame_from_ref (seg_orig s)) /\
  exact_exp c (pc_a (q_d2_dest t)) (d2_frame_from_ref (seg_dest s)).

(** ** Time curves *)
(** Which control points a curve takes: the first one, and then every point that is later
    than the last one taken and has its frames. *)
Definition acceptable (taken : list (control G T)) (p : control G T) : Prop :=
  taken = [] \/ exists l b, taken = l ++ [b] /\ c_time b < c_time p /\
    same_frames (frame_from_ref (c_point p)) (frame_from_ref (c_point b)).
Inductive takes : list (control G T) -> list (control G T) -> Prop :=
  | takes_nil : takes [] []
  | takes_yes ps taken p : takes ps taken -> acceptable taken p -> takes (ps ++ [p]) (taken ++ [p])
  | takes_no ps taken p : takes ps taken -> ~ acceptable taken p -> takes (ps ++ [p]) taken.
(** The curve after the calls append(p) for all [p] in [ps], where calls that throw are
    caught by the caller. *)
Fixpoint after_appends (ps : list (control G T)) (k : tcurve G T) : tcurve G T :=
  match ps with
  | [] => k
  | p :: ps' => after_appends ps' (fst (tc_append o p k))
  end.
(** Consecutive elements of a list. *)
Fixpoint consecutive {A} (l : list A) : list (A * A) :=
  match l with
  | a :: (b :: _) as l' => (a, b) :: consecutive l'
  | _ => []
  end.
(** The segment [s] runs from the control point [a] to [b]: it has their poses, and their
    derivatives with respect to the time that runs from 0 to 1 in between. *)
Definition joins (a b : control G T) (s : tsegment G T) : Prop :=
  orig_time s = c_time a /\ dest_time s = c_time b /\
  let dt := c_time b - c_time a in
  frame_from_ref (seg_orig (curve s)) = frame_from_ref (c_point a) /\
  d_frame_from_ref (seg_orig (curve s)) = t_scale o dt (d_frame_from_ref (c_point a)) /\
  d2_frame_from_ref (seg_orig (curve s)) = t_scale o (dt^2) (d2_frame_from_ref (c_point a)) /\
  frame_from_ref (seg_dest (curve s)) = frame_from_ref (c_point b) /\
  d_frame_from_ref (seg_dest (curve s)) = t_scale o dt (d_frame_from_ref (c_point b)) /\
  d2_frame_from_ref (seg_dest (curve s)) = t_scale o (dt^2) (d2_frame_from_ref (c_point b)).
(** A curve built through the interface, from genuine control points. *)
Definition built (k : tcurve G T) : Prop := exists ps, k = after_appends ps tc_empty.
Definition curve_wf (k : tcurve G T) : Prop := built k /\ forall p, In p (control_pts k) -> jet_l_wf c (c_point p).
(** [a] and [b] are neighbouring control points of a curve. *)
Definition neighbours (k : tcurve G T) (a b : control G T) : Prop := exists l r, control_pts k = l ++ a :: b :: r.
(** exp and log are exact on the motions between neighbours. *)
Definition exact_motions (k : tcurve G T) : Prop :=
  forall a b, neighbours k a b -> exact_motion (c_point a) (c_point b).
(** The times a curve covers. *)
Definition covers (k : tcurve G T) (t : R) : Prop :=
  exists a l b, control_pts k = a :: l ++ [b] /\ c_time a <= t <= c_time b.
Definition inside (k : tcurve G T) (t : R) : Prop :=
  exists a l b, control_pts k = a :: l ++ [b] /\ c_time a < t < c_time b.
(** A curve of tangent vectors is continuous. *)
Definition tangent_continuous (u : R -> T) (t : R) : Prop := forall n, continuity_pt (fun s => coord c (u s) n) t.
End Curves.

(** ** SE3 curves and the ideal they approximate *)
(** Two poses are alike up to a distance [e]: same rotation, same frames. *)
Definition pose_close (e : R) (g h : se3) : Prop :=
  rotation g = rotation h /\ se3_into g = se3_into h /\ se3_from g = se3_from h /\
  norm (vsub (translation g) (translation h)) <= e.
(** Two jets are alike: their poses are, and their rotational derivatives are equal. *)
Definition jet_close (e : R) (j k : jet_l se3 tan6) : Prop :=
  pose_close e (frame_from_ref j) (frame_from_ref k) /\
  trot (d_frame_from_ref j) = trot (d_frame_from_ref k) /\ trot (d2_frame_from_ref j) = trot (d2_frame_from_ref k).
(** The five increments of a segment at the normalized time [t]. *)
Definition increments (s : tcurve_segment se3 tan6) (m : se3) (t : R) : list tan6 :=
  [ tscale (pc_a (q_dest_from_orig t)) (se3_log m);
    tscale (pc_a (q_d_orig t)) (d_frame_from_ref (seg_orig s));
    tscale (pc_a (q_d_dest t)) (d_frame_from_ref (seg_dest s));
    tscale (pc_a (q_d2_orig t)) (d2_frame_from_ref (seg_orig s));
    tscale (pc_a (q_d2_dest t)) (d2_frame_from_ref (seg_dest s)) ].
(** How far they move the point, together. *)
Definition travel (l : list tan6) : R := fold_right (fun v x => norm (ttrans v) + x) 0 l.
