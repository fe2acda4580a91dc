(** Model of the helpers that make jets, curves, payloads and primitives for the tests:
    resim/curves/two_jet_test_helpers.cc, t_curve_test_helpers.cc, d_curve_test_helpers.cc,
    resim/visualization/view_server/view_server_test_helper.cc and
    resim/visualization/proto/view_primitive_test_helper.cc.

    Group::exp is any function [exp] here (C66 and C67 say what it gives in double precision),
    so that SO3 and SE3 are treated at once; UUID::new_uuid gives [ids 0], [ids 1], ... *)
From Coq Require Import ZArith List Reals String.
From Flocq Require Import Core BinarySingleNaN.
From Verif Require Import Cpp FloatModel UuidModel GeomModel JetModel CurveModel ExamModel StateModel DriftModel FpsModel StmtModel TvModel.
Import ListNotations.

(** A LieGroup with its two frames: liegroup.hh:100-101. *)
Record framed (G : Type) := Framed { f_value : G; f_into : frame; f_from : frame }.
Arguments Framed {G}. Arguments f_value {G}. Arguments f_into {G}. Arguments f_from {G}.
(** LieGroup() and LieGroup(into, from): liegroup.hh:28, 35-44. *)
Definition no_frames {G} (g : G) : framed G := Framed g null_frame null_frame.
Definition with_frames {G} (g : G) (into from : frame) : outcome (framed G) :=
  let* _ := reassert (Bool.eqb (frame_is_null into) (frame_is_null from)) in Ok (Framed g into from).
(** set_frames, set_unframed and verify_frames: liegroup.hh:57-71, 83-97. *)
Definition set_frames {G} (g : framed G) (into from : frame) : outcome (framed G) :=
  let* _ := reassert (negb (frame_is_null into || frame_is_null from)) in Ok (Framed (f_value g) into from).
Definition set_unframed {G} (g : framed G) : framed G := no_frames (f_value g).
Definition verify_frames {G} (g : framed G) (into from : frame) : bool :=
  frame_eqb (f_into g) into && frame_eqb (f_from g) from.

(** ** Jets: two_jet_test_helpers.cc *)
(** TwoJetL and TwoJetR: two_jet.hh:59-112, 174-176. *)
Record test_jet (G V : Type) := TestJet { t_pose : framed G; t_d : V; t_d2 : V }.
Arguments TestJet {G V}. Arguments t_pose {G V}. Arguments t_d {G V}. Arguments t_d2 {G V}.
(** make_test_two_jet: two_jet_test_helpers.cc:39-48.  The last two arguments of the constructor
    may be computed in either order; [in_order] when it is from left to right. *)
Definition make_test_two_jet {S G V} (k : kind S V) (exp : V -> G) (in_order : bool) (INTO_FRAME FROM_FRAME : frame) (s : S) :
  outcome (test_jet G V * S) :=
  let '(v, s) := k_random k s in
  let* point_from_ref := with_frames (exp v) INTO_FRAME FROM_FRAME in
  let '(a, s) := k_random k s in
  let '(b, s) := k_random k s in
  Ok ((if in_order then TestJet point_from_ref a b else TestJet point_from_ref b a), s).
(** make_test_group_elements: liegroup_test_helpers.cc:88-102. *)
Definition make_test_group_elements {S G V} (k : kind S V) (exp : V -> G) (fresh : V) (seeded : S) (count : Z) : outcome (list (framed G)) :=
  let* algebra_elements := make_test_vectors k fresh seeded count in
  Ok (map (fun alg => no_frames (exp alg)) algebra_elements).
(** operator[] of std::vector. *)
Definition at_index {A} (l : list A) (i : Z) : outcome A :=
  match nth_error l (Z.to_nat i) with Some a => Ok a | None => UB end.
(** The loop of make_test_two_jet_elements, [n] more times: two_jet_test_helpers.cc:65-70. *)
Fixpoint collect_jets {G V} (INTO_FRAME FROM_FRAME : frame) (group_elements : list (framed G)) (algebra_1 algebra_2 : list V) (n : nat) (i : Z)
  (two_jets : list (test_jet G V)) : outcome (list (test_jet G V)) :=
  match n with
  | O => Ok two_jets
  | Datatypes.S n =>
      let* g := at_index group_elements i in
      let* framed_group := set_frames g INTO_FRAME FROM_FRAME in
      let* a := at_index algebra_1 i in
      let* b := at_index algebra_2 i in
      if (i =? INT_MAX)%Z then UB
      else collect_jets INTO_FRAME FROM_FRAME group_elements algebra_1 algebra_2 n (i + 1) (two_jets ++ [TestJet framed_group a b])
  end.
(** make_test_two_jet_elements: two_jet_test_helpers.cc:50-73.  The generators of the three
    lists all start from the same seed (liegroup_test_helpers.cc:58-59). *)
Definition make_test_two_jet_elements {S G V} (k : kind S V) (exp : V -> G) (fresh : V) (fresh_jet : test_jet G V) (INTO_FRAME FROM_FRAME : frame)
  (seeded : S) (count : Z) : outcome (list (test_jet G V)) :=
  let* _ := reassert (min_test_elements <=? count)%Z in
  let* group_elements := make_test_group_elements k exp fresh seeded count in
  let* algebra_elements_1 := make_test_vectors k fresh seeded count in
  let* algebra_elements_2 := make_test_vectors k fresh seeded count in
  let* two_jets := collect_jets INTO_FRAME FROM_FRAME group_elements algebra_elements_1 algebra_elements_2 (Z.to_nat count) 0 [] in
  Ok (resize (Z.to_nat count) fresh_jet two_jets).

(** ** Time curves: t_curve_test_helpers.cc *)
(** TCurve::Control: t_curve.hh:35-40. *)
Record test_control (G V : Type) := TestControl { t_time : f64; t_point : test_jet G V }.
Arguments TestControl {G V}. Arguments t_time {G V}. Arguments t_point {G V}.
(** TCurve::append, t_curve.cc:55-90, with the check of TCurveSegment, t_curve_segment.cc:27-38:
    the control points of the curve.  Simplification: the segments are left out (C75, C80). *)
Definition t_append {G V} (control_pts : list (test_control G V)) (point : test_control G V) : outcome (list (test_control G V)) :=
  match rev control_pts with
  | [] => Ok [point]
  | back :: _ =>
      let* _ := reassert (flt (t_time back) (t_time point)) in
      let* _ := reassert (verify_frames (t_pose (t_point point)) (f_into (t_pose (t_point back))) (f_from (t_pose (t_point back)))) in
      let* _ := reassert (verify_frames (t_pose (t_point back)) (f_into (t_pose (t_point point))) (f_from (t_pose (t_point point)))) in
      Ok (control_pts ++ [point])
  end.
(** TCurve(points): t_curve.cc:43-48. *)
Fixpoint t_appends {G V} (control_pts points : list (test_control G V)) : outcome (list (test_control G V)) :=
  match points with
  | [] => Ok control_pts
  | point :: points => let* control_pts := t_append control_pts point in t_appends control_pts points
  end.
(** The loop of make_t_curve: t_curve_test_helpers.cc:36-46. *)
Fixpoint extend_t_curve {S G V} (k : kind S V) (exp : V -> G) (in_order : bool) (INTO_FRAME FROM_FRAME POINT_FRAME REF_FRAME : frame) (framed : bool)
  (times : list f64) (s : S) (test_curve : list (test_control G V)) : outcome (list (test_control G V) * S) :=
  match times with
  | [] => Ok (test_curve, s)
  | t :: times =>
      let* (test_tj, s) := make_test_two_jet k exp in_order INTO_FRAME FROM_FRAME s in
      let* group := if framed then set_frames (t_pose test_tj) POINT_FRAME REF_FRAME else Ok (set_unframed (t_pose test_tj)) in
      let* test_curve := t_append test_curve (TestControl t (TestJet group (t_d test_tj) (t_d2 test_tj))) in
      extend_t_curve k exp in_order INTO_FRAME FROM_FRAME POINT_FRAME REF_FRAME framed times s test_curve
  end.
(** make_t_curve: t_curve_test_helpers.cc:31-48. *)
Definition make_t_curve {S G V} (k : kind S V) (exp : V -> G) (in_order : bool) (INTO_FRAME FROM_FRAME POINT_FRAME REF_FRAME : frame)
  (times : list f64) (framed : bool) (s : S) : outcome (list (test_control G V) * S) :=
  extend_t_curve k exp in_order INTO_FRAME FROM_FRAME POINT_FRAME REF_FRAME framed times s [].

(** ** The circle for distance curves, over the reals: d_curve_test_helpers.cc:22-48, where M_PI
    is taken to be the number it stands for *)
Definition circle_points (ref_frame pnt_frame : frame) : outcome (list se3) :=
  let frames := Some (ref_frame, pnt_frame) in
  let* ref_from_000deg := se3_of_translation unit_x frames in
  let* r090 := so3_of_angle_axis (PI / 2) unit_z None in
  let* ref_from_090deg := se3_make r090 unit_y frames in
  let* r180 := so3_of_angle_axis PI unit_z None in
  let* ref_from_180deg := se3_make r180 (vneg unit_x) frames in
  let* r270 := so3_of_angle_axis (3 * PI / 2) unit_z None in
  let* ref_from_270deg := se3_make r270 (vneg unit_y) frames in
  Ok [ref_from_000deg; ref_from_090deg; ref_from_180deg; ref_from_270deg].

(** ** Payloads: view_server_test_helper.cc *)
(** A loop of an int counter below [count] that pushes one result per turn, [n] more times
    (view_server_test_helper.cc:52-55, 106-116, 136-140, 158-161, 174-177).  [next] is the
    number of ids made so far. *)
Fixpoint push_loop {A} (make : nat -> outcome (A * nat)) (n : nat) (i : Z) (next : nat) (l : list A) : outcome (list A * nat) :=
  match n with
  | O => Ok (l, next)
  | Datatypes.S n =>
      let* (a, next) := make next in
      if (i =? INT_MAX)%Z then UB else push_loop make n (i + 1) next (l ++ [a])
  end.
(** Frame::new_frame: frame.hh:31, with the id that new_uuid gives. *)
Definition new_frame (ids : nat -> uuid) (next : nat) : frame * nat := (ids next, Datatypes.S next).
(** The payloads Frame: view_server_test_helper.cc:46-57. *)
Definition payload_frames (ids : nat -> uuid) (count : Z) (next : nat) : outcome (list frame * nat) :=
  let* _ := reassert (min_test_elements <=? count)%Z in
  push_loop (fun next => Ok (new_frame ids next)) (Z.to_nat count) 0 next [].
(** The payloads SE3 and SO3: view_server_test_helper.cc:59-95. *)
Fixpoint push_poses {G} (ids : nat -> uuid) (framed_ : bool) (elements : list (framed G)) (next : nat) (points : list (framed G)) :
  outcome (list (framed G) * nat) :=
  match elements with
  | [] => Ok (points, next)
  | element :: elements =>
      let* (element, next) :=
        if framed_ then
          let '(pt_frame, next) := new_frame ids next in
          let '(ref_frame, next) := new_frame ids next in
          let* element := set_frames element ref_frame pt_frame in Ok (element, next)
        else Ok (set_unframed element, next) in
      push_poses ids framed_ elements next (points ++ [element])
  end.
Definition payload_poses {S G V} (k : kind S V) (exp : V -> G) (fresh : V) (seeded : S) (ids : nat -> uuid) (count : Z) (framed_ : bool) (next : nat) :
  outcome (list (framed G) * nat) :=
  let* _ := reassert (min_test_elements <=? count)%Z in
  let* elements := make_test_group_elements k exp fresh seeded count in
  push_poses ids framed_ elements next [].
(** d_curves.front() = ... (view_server_test_helper.cc:120); there is no front of an empty vector. *)
Definition assign_front {A} (l : list A) (a : A) : outcome (list A) := match l with [] => UB | _ :: l => Ok (a :: l) end.
(** The payloads DCurve<SE3>: view_server_test_helper.cc:97-123; [REF_FRAME] and [PNT_FRAME]
    are those of DCurveCircle<SE3>. *)
Definition payload_d_curves (REF_FRAME PNT_FRAME : frame) (count : Z) (framed_ : bool) : outcome (list dcurve) :=
  let* _ := reassert (min_test_elements <=? count)%Z in
  let* (d_curves, _) := push_loop (fun next =>
    let* points := if framed_ then circle_points REF_FRAME PNT_FRAME else circle_points null_frame null_frame in
    let* curve := dc_make points in Ok (curve, next)) (Z.to_nat count) 0 0%nat [] in
  if negb framed_ then assign_front d_curves dc_empty else Ok d_curves.
(** The payloads TCurve<SE3>: view_server_test_helper.cc:125-143. *)
Definition payload_t_curves (ids : nat -> uuid) (count : Z) (framed_ : bool) (next : nat) : outcome (list (tcurve se3 tan6) * nat) :=
  let* _ := reassert (min_test_elements <=? count)%Z in
  let '(into, next) := if framed_ then new_frame ids next else (null_frame, next) in
  let '(from, next) := if framed_ then new_frame ids next else (null_frame, next) in
  push_loop (fun next => let* test_curve := make_circle_curve into from in Ok (test_curve, next)) (Z.to_nat count) 0 next [].
(** The payloads Trajectory: view_server_test_helper.cc:145-164; at(i) throws when there is no
    such element. *)
Fixpoint push_trajectories (t_curves : list (tcurve se3 tan6)) (n : nat) (i : Z) (trajectories : list traj) : outcome (list traj) :=
  match n with
  | O => Ok trajectories
  | Datatypes.S n =>
      let* t_curve := match nth_error t_curves (Z.to_nat i) with Some c => Ok c | None => Throw end in
      if (i =? INT_MAX)%Z then UB else push_trajectories t_curves n (i + 1) (trajectories ++ [tr_of_curve t_curve 0])
  end.
Definition payload_trajectories (ids : nat -> uuid) (count : Z) (framed_ : bool) (next : nat) : outcome (list traj * nat) :=
  let* _ := reassert (min_test_elements <=? count)%Z in
  let* (t_curves, next) := payload_t_curves ids count true next in
  let* trajectories := push_trajectories t_curves (Z.to_nat count) 0 [] in
  Ok (trajectories, next).
(** The payloads FramedVector: view_server_test_helper.cc:38-42, 166-180; FramedVector(vector)
    makes a new frame (framed_vector.hh:49-51). *)
Definition payload_vectors {S} (draw : source S) (seeded : S) (ids : nat -> uuid) (count : Z) (framed_ : bool) (next : nat) : outcome (list (fvec * frame) * nat) :=
  push_loop (fun next =>
    let '(v, _) := random3 draw seeded in
    let '(f, next) := new_frame ids next in Ok ((v, f), next)) (Z.to_nat count) 0 next [].

(** ** Primitives: view_primitive_test_helper.cc *)
(** generate_test_t_curve, the loop over the poses: view_primitive_test_helper.cc:46-59.  The
    braces make the jet's parts from left to right. *)
Fixpoint test_controls {S G V} (k : kind S V) (into from : frame) (poses : list (framed G)) (time : f64) (s : S) (control_points : list (test_control G V)) :
  outcome (list (test_control G V)) :=
  match poses with
  | [] => Ok control_points
  | pose :: poses =>
      let* pose := set_frames pose into from in
      let '(a, s) := k_random k s in
      let '(b, s) := k_random k s in
      test_controls k into from poses (fadd time (of_int 1)) s (control_points ++ [TestControl time (TestJet pose a b)])
  end.
(** generate_test_t_curve and NUM_GROUP_POINTS: view_primitive_test_helper.cc:34, 38-61.  The
    seed is that of the test elements too: view_primitive_test_helper.cc:33,
    liegroup_test_helpers.cc:58. *)
Definition num_group_points : Z := 10.
Definition generate_test_t_curve {S G V} (k : kind S V) (exp : V -> G) (fresh : V) (elements_seeded s : S) (ids : nat -> uuid) (next : nat) :
  outcome (list (test_control G V) * nat) :=
  let* control_point_poses := make_test_group_elements k exp fresh elements_seeded num_group_points in
  let '(into, next) := new_frame ids next in
  let '(from, next) := new_frame ids next in
  let* control_points := test_controls k into from control_point_poses (of_int 0) s [] in
  let* curve := t_appends [] control_points in
  Ok (curve, next).
(** generate_test_object of SE3 and SO3: view_primitive_test_helper.cc:69-89. *)
Definition test_object_pose {S G V} (k : kind S V) (exp : V -> G) (seeded : S) (ids : nat -> uuid) (next : nat) : outcome (framed G * nat) :=
  let '(into, next) := new_frame ids next in
  let '(from, next) := new_frame ids next in
  let '(test_tangent, _) := k_random k seeded in
  let* g := with_frames (exp test_tangent) into from in
  Ok (g, next).
(** generate_test_primitive: view_primitive_test_helper.cc:118-129, with TEST_FILE_NAME and
    TEST_LINE_NUMBER of view_primitive_test_helper.hh:17-18.  The members are initialised in
    order, so the id is made first. *)
Definition generate_test_primitive {A} (object : nat -> outcome (A * nat)) (name : option string) (next : nat) : outcome (primitive A * nat) :=
  let id := next in
  let* (payload, next) := object (Datatypes.S next) in
  Ok (Primitive id payload name "test_file_name"%string 42, next).
