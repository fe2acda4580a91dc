(** Model of resim/curves/proto, resim/actor/state/proto and resim/visualization/proto.

    A message is the record of its fields; sub-messages that are not set read as their
    defaults.  A pack function takes the message to write to, [None] for a null pointer,
    and returns what that message then holds.  Sub-messages obtained by mutable_... are
    never null, and all their fields are written by the functions called on them, so there
    the plain functions of TransProtoModel are used. *)
From Coq Require Import Ascii String.
From Verif Require Import Cpp UuidModel GeomModel TransProtoModel JetModel CurveModel TimeModel StateModel StatusModel.
Local Open Scope R_scope.

(** REASSERT(out != nullptr, ...): for instance t_curve_to_proto.cc:22. *)
Definition not_null {A} (out : option A) : outcome A :=
  match out with Some m => Ok m | None => Throw end.

(** The overloads of pack and unpack for a group and its tangent vectors that the
    templates below are instantiated with: se3_to_proto.cc, so3_to_proto.cc and
    matrix_to_proto.hh:42-67 with vectors of size DOF. *)
Record lie_wire (G T : Type) := LieWire {
  w_pack : G -> lie_msg; w_unpack : lie_msg -> outcome G;
  w_pack_tangent : T -> list R; w_unpack_tangent : list R -> outcome T }.
Arguments w_pack {G T}. Arguments w_unpack {G T}. Arguments w_pack_tangent {G T}. Arguments w_unpack_tangent {G T}.
Definition so3_wire : lie_wire so3 vec3 := LieWire _ _ pack_so3 unpack_so3 pack_vec3 unpack_vec3.
Definition se3_wire : lie_wire se3 tan6 := LieWire _ _ pack_se3 unpack_se3 pack_tan6 unpack_tan6.

(** ** Two-jets *)
(** TwoJetL_SE3, TwoJetL_SO3, TwoJetR_SE3, TwoJetR_SO3: two_jet.proto:8-30. *)
Record jet_msg := JetMsg { jm_group : lie_msg; jm_d : list R; jm_d2 : list R }.
(** What Clear leaves. *)
Definition lie_msg_default : lie_msg := LieMsg [] [] [].
Definition jet_msg_default : jet_msg := JetMsg lie_msg_default [] [].
(** TCurve_SE3::Control, TCurve_SO3::Control: t_curve.proto:10-13, 19-22. *)
Record control_msg := ControlMsg { cm_time : R; cm_point : jet_msg }.

Section Wire.
Context {G T : Type} (o : lie_ops G T) (w : lie_wire G T).
(** pack_two_jetl: two_jet_to_proto.cc:20-31. *)
Definition pack_two_jetl (j : jet_l G T) (out : option jet_msg) : outcome jet_msg :=
  let* _ := not_null out in
  let m := jet_msg_default in
  let m := JetMsg (w_pack w (frame_from_ref j)) (jm_d m) (jm_d2 m) in
  let m := JetMsg (jm_group m) (w_pack_tangent w (d_frame_from_ref j)) (jm_d2 m) in
  Ok (JetMsg (jm_group m) (jm_d m) (w_pack_tangent w (d2_frame_from_ref j))).
(** pack_two_jetr: two_jet_to_proto.cc:33-44. *)
Definition pack_two_jetr (j : jet_r G T) (out : option jet_msg) : outcome jet_msg :=
  let* _ := not_null out in
  let m := jet_msg_default in
  let m := JetMsg (w_pack w (ref_from_frame j)) (jm_d m) (jm_d2 m) in
  let m := JetMsg (jm_group m) (w_pack_tangent w (d_ref_from_frame j)) (jm_d2 m) in
  Ok (JetMsg (jm_group m) (jm_d m) (w_pack_tangent w (d2_ref_from_frame j))).
(** unpack_two_jetl: two_jet_to_proto.cc:51-59. *)
Definition unpack_two_jetl (m : jet_msg) : outcome (jet_l G T) :=
  let* g := w_unpack w (jm_group m) in
  let* d := w_unpack_tangent w (jm_d m) in
  let* d2 := w_unpack_tangent w (jm_d2 m) in
  Ok (JetL g d d2).
(** unpack_two_jetr: two_jet_to_proto.cc:61-69. *)
Definition unpack_two_jetr (m : jet_msg) : outcome (jet_r G T) :=
  let* g := w_unpack w (jm_group m) in
  let* d := w_unpack_tangent w (jm_d m) in
  let* d2 := w_unpack_tangent w (jm_d2 m) in
  Ok (JetR g d d2).

(** ** Time curves; the message is its repeated field: t_curve.proto:7-23 *)
(** pack_t_curve: t_curve_to_proto.cc:20-30.  add_points gives a pointer to a new default
    element, which is not null. *)
Definition pack_t_curve (c : tcurve G T) (out : option (list control_msg)) : outcome (list control_msg) :=
  let* _ := not_null out in
  fold_left (fun acc control =>
      let* points := acc in
      let* point := pack_two_jetl (c_point control) (Some jet_msg_default) in
      Ok (points ++ [ControlMsg (c_time control) point])) (control_pts c) (Ok []).
(** unpack_t_curve into a curve of the caller: t_curve_to_proto.cc:35-43. *)
Definition unpack_t_curve_into (msg : list control_msg) : call (tcurve G T) unit :=
  do _ := update (fun _ => tc_empty) in
  for_each (fun m => do point := calc (fun _ => unpack_two_jetl (cm_point m)) in
                     tc_append o (Control (cm_time m) point)) msg.
(** unpack: t_curve_se3_to_proto.cc:22-26, t_curve_so3_to_proto.cc:22-26. *)
Definition unpack_t_curve (msg : list control_msg) : outcome (tcurve G T) :=
  construct tc_empty (unpack_t_curve_into msg).
End Wire.

(** ** Distance curves; the message is its repeated field: d_curve.proto:7-9 *)
(** pack_d_curve: d_curve_to_proto.cc:16-24. *)
Definition pack_d_curve (c : dcurve) (out : option (list lie_msg)) : outcome (list lie_msg) :=
  let* _ := not_null out in
  Ok (fold_left (fun acc p => acc ++ [pack_se3 (ref_from_control p)]) (d_control_pts c) []).
(** The loop of unpack_d_curve: d_curve_to_proto.cc:31-35. *)
Fixpoint unpack_points (msg : list lie_msg) (points : list se3) : outcome (list se3) :=
  match msg with
  | [] => Ok points
  | m :: msg' => let* group := unpack_se3 m in unpack_points msg' (points ++ [group])
  end.
(** unpack_d_curve: d_curve_to_proto.cc:26-38. *)
Definition unpack_d_curve (msg : list lie_msg) : outcome dcurve :=
  let* points := unpack_points msg [] in
  dc_make points.

(** ** Trajectories *)
(** Trajectory: trajectory.proto:8-11, with a google.protobuf.Timestamp. *)
Record traj_msg := TrajMsg { tm_seconds : Z; tm_nanos : Z; tm_curve : list control_msg }.
Definition traj_msg_default : traj_msg := TrajMsg 0 0 [].
(** pack: actor/state/proto/trajectory_to_proto.cc:18-28. *)
Definition pack_traj (t : traj) (out : option traj_msg) : outcome traj_msg :=
  let* _ := not_null out in
  let m := traj_msg_default in
  let* start_time := to_seconds_and_nanos (tr_start_time t) in
  let m := TrajMsg (tm_seconds m) (nanos start_time) (tm_curve m) in
  let m := TrajMsg (secs start_time) (tm_nanos m) (tm_curve m) in
  let* c := pack_t_curve se3_wire (tr_curve t) (Some (tm_curve m)) in
  Ok (TrajMsg (tm_seconds m) (tm_nanos m) c).
(** unpack: trajectory_to_proto.cc:30-34. *)
Definition unpack_traj (m : traj_msg) : outcome traj :=
  let* start_time := from_seconds_and_nanos {| secs := tm_seconds m; nanos := tm_nanos m |} in
  let* c := unpack_t_curve se3_ops se3_wire (tm_curve m) in
  Ok (tr_of_curve c start_time).

(** ** View primitives *)
(** The payload of a ViewPrimitive: resim/visualization/view_primitive.hh:29-37. *)
Inductive payload :=
  | PSE3 (g : se3) | PSO3 (g : so3) | PDCurve (k : dcurve) | PTCurve (k : tcurve se3 tan6) | PTrajectory (t : traj)
  | PFrame (f : frame) | PFramedVector (v : framed_vector).
(** ViewPrimitive: view_primitive.hh:27-42. *)
Record view_primitive := ViewPrimitive { vp_id : uuid; vp_payload : payload; user_defined_name : option text;
  file_name : text; line_number : Z }.
(** The oneof of the message: view_primitive.proto:19-27. *)
Inductive payload_msg :=
  | MSE3 (m : lie_msg) | MSO3 (m : lie_msg) | MDCurve (m : list lie_msg) | MTCurve (m : list control_msg) | MTrajectory (m : traj_msg)
  | MFrame (m : text) | MFramedVector (m : fv_msg).
(** ViewPrimitive: view_primitive.proto:16-32.  The payload is [None] if none is set. *)
Record view_msg := ViewMsg { vm_id : text; vm_payload : option payload_msg; vm_name : text; vm_file : text; vm_line : Z }.
Definition view_msg_default : view_msg := ViewMsg [] None [] [] 0.
(** The packing of the payload: view_primitive_to_proto.cc:40-58. *)
Definition pack_payload (p : payload) : outcome payload_msg :=
  match p with
  | PFrame f => Ok (MFrame (pack_frame f))
  | PSE3 g => Ok (MSE3 (pack_se3 g))
  | PSO3 g => Ok (MSO3 (pack_so3 g))
  | PDCurve k => let* m := pack_d_curve k (Some []) in Ok (MDCurve m)
  | PTCurve k => let* m := pack_t_curve se3_wire k (Some []) in Ok (MTCurve m)
  | PTrajectory t => let* m := pack_traj t (Some traj_msg_default) in Ok (MTrajectory m)
  | PFramedVector v => Ok (MFramedVector (pack_framed_vector v))
  end.
(** pack: view_primitive_to_proto.cc:28-59. *)
Definition pack_view_primitive (v : view_primitive) (out : option view_msg) : outcome view_msg :=
  let* _ := not_null out in
  let m := view_msg_default in
  let m := ViewMsg (pack_uuid (vp_id v)) (vm_payload m) (vm_name m) (vm_file m) (vm_line m) in
  let m := match user_defined_name v with
           | Some name => ViewMsg (vm_id m) (vm_payload m) name (vm_file m) (vm_line m)
           | None => m
           end in
  let m := ViewMsg (vm_id m) (vm_payload m) (vm_name m) (file_name v) (vm_line m) in
  let m := ViewMsg (vm_id m) (vm_payload m) (vm_name m) (vm_file m) (line_number v) in
  let* p := pack_payload (vp_payload v) in
  Ok (ViewMsg (vm_id m) (Some p) (vm_name m) (vm_file m) (vm_line m)).
(** The unpacking of the payload: view_primitive_to_proto.cc:81-105. *)
Definition unpack_payload (m : payload_msg) : outcome payload :=
  match m with
  | MFrame f => let* f := unpack_frame f in Ok (PFrame f)
  | MSE3 g => let* g := unpack_se3 g in Ok (PSE3 g)
  | MSO3 g => let* g := unpack_so3 g in Ok (PSO3 g)
  | MDCurve k => let* k := unpack_d_curve k in Ok (PDCurve k)
  | MTCurve k => let* k := unpack_t_curve se3_ops se3_wire k in Ok (PTCurve k)
  | MTrajectory t => let* t := unpack_traj t in Ok (PTrajectory t)
  | MFramedVector v => let* v := unpack_framed_vector v in Ok (PFramedVector v)
  end.
(** detail::unpack: view_primitive_to_proto.cc:68-108. *)
Definition detail_unpack (m : view_msg) : outcome (status_value view_primitive) :=
  let* id := unpack_uuid (vm_id m) in
  let name := match vm_name m with [] => None | _ => Some (vm_name m) end in
  match vm_payload m with
  | None => sv_of_status (make_at_line "resim/visualization/proto/view_primitive_to_proto.cc" 104 "Can't unpack unset ViewPrimitive!")
  | Some p => let* payload := unpack_payload p in
              Ok (sv_of_value (ViewPrimitive id payload name (vm_file m) (vm_line m)))
  end.
(** unpack: view_primitive_to_proto.cc:61-65. *)
Definition unpack_view_primitive (m : view_msg) : outcome view_primitive :=
  let* result := detail_unpack m in
  let* _ := check_status_ok (sv_status result) in
  sv_value result.

(** ViewUpdate: view_update.hh:17-19, view_update.proto:8-10; both are their lists. *)
(** pack: view_update_to_proto.cc:14-20. *)
Definition pack_view_update (u : list view_primitive) (out : option (list view_msg)) : outcome (list view_msg) :=
  let* _ := not_null out in
  fold_left (fun acc v =>
      let* ms := acc in
      let* m := pack_view_primitive v (Some view_msg_default) in
      Ok (ms ++ [m])) u (Ok []).
(** unpack: view_update_to_proto.cc:22-29. *)
Definition unpack_view_update (msg : list view_msg) : outcome (list view_primitive) :=
  fold_left (fun acc m =>
      let* vs := acc in
      let* v := unpack_view_primitive m in
      Ok (vs ++ [v])) msg (Ok []).
