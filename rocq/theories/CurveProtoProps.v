(** Wire forms of jets, curves and trajectories, and of view primitives: C44, C45. *)
From Coq Require Import Ascii.
From Verif Require Import Cpp UuidModel UuidSpec UuidProofs RotSpec RotProofs GeomModel TransProtoModel TransProtoSpec TransProtoProofs FrameSpec FrameProofs LieSpec LieProofs
  JetModel JetSpec JetLaws CurveModel CurveSpec TCurveProofs DCurveSpec DCurveProofs DCurveCases CurveProps TimeModel TimeSpec StateModel StateSpec
  CurveProtoModel CurveProtoSpec CurveProtoProofs.
Local Open Scope R_scope.

(** ** C44 *)
(** Two-jets: rotations come back as they were, poses as described by [se3_near]. *)
Theorem c44_so3_jets : forall out,
  (forall j, so3_wf (frame_from_ref j) -> so3_ids (frame_from_ref j) ->
     exists m, pack_two_jetl so3_wire j (Some out) = Ok m /\ unpack_two_jetl so3_wire m = Ok j) /\
  (forall j, so3_wf (ref_from_frame j) -> so3_ids (ref_from_frame j) ->
     exists m, pack_two_jetr so3_wire j (Some out) = Ok m /\ unpack_two_jetr so3_wire m = Ok j).
Proof. exact so3_jets_round. Qed.
Print Assumptions c44_so3_jets.
Theorem c44_se3_jets : forall out,
  (forall j, se3_wf (frame_from_ref j) -> se3_ids (frame_from_ref j) ->
     exists m k, pack_two_jetl se3_wire j (Some out) = Ok m /\ unpack_two_jetl se3_wire m = Ok k /\ jet_l_near j k /\
       (plain_pose (frame_from_ref j) -> k = j)) /\
  (forall j, se3_wf (ref_from_frame j) -> se3_ids (ref_from_frame j) ->
     exists m k, pack_two_jetr se3_wire j (Some out) = Ok m /\ unpack_two_jetr se3_wire m = Ok k /\ jet_r_near j k /\
       (plain_pose (ref_from_frame j) -> k = j)).
Proof. exact se3_jets_round. Qed.
Print Assumptions c44_se3_jets.

(** Time curves, distance curves and trajectories of any length. *)
Theorem c44_so3_curve : forall k out, curve_wf so3_ops so3_calc k -> (forall p, In p (control_pts k) -> so3_ids (frame_from_ref (c_point p))) ->
  exists msg, pack_t_curve so3_wire k (Some out) = Ok msg /\ unpack_t_curve so3_ops so3_wire msg = Ok k.
Proof. exact t_so3_round. Qed.
Print Assumptions c44_so3_curve.
Theorem c44_se3_curve : forall k out, curve_wf se3_ops se3_calc k -> tcurve_ids k ->
  exists msg k', pack_t_curve se3_wire k (Some out) = Ok msg /\ unpack_t_curve se3_ops se3_wire msg = Ok k' /\ tcurve_near k k' /\
    (tcurve_plain k -> k' = k).
Proof. exact t_near_round. Qed.
Print Assumptions c44_se3_curve.
Theorem c44_distance_curve : forall k out, d_built k -> dcurve_ids k ->
  exists msg k', pack_d_curve k (Some out) = Ok msg /\ unpack_d_curve msg = Ok k' /\ dcurve_near k k' /\ (dcurve_plain k -> k' = k).
Proof. exact d_near_round. Qed.
Print Assumptions c44_distance_curve.
Theorem c44_trajectory : forall t out, in64 (tr_start_time t) -> curve_wf se3_ops se3_calc (tr_curve t) -> tcurve_ids (tr_curve t) ->
  exists msg t', pack_traj t (Some out) = Ok msg /\ seconds_split (tr_start_time t) (tm_seconds msg) (tm_nanos msg) /\
    unpack_traj msg = Ok t' /\ traj_near t t' /\ (tcurve_plain (tr_curve t) -> t' = t).
Proof. exact traj_near_round. Qed.
Print Assumptions c44_trajectory.
(** The start time on the wire is a valid google.protobuf.Timestamp exactly if it is not
    before 1970 or a whole number of seconds. *)
Theorem c44_timestamp_valid : forall t out msg, in64 (tr_start_time t) -> curve_wf se3_ops se3_calc (tr_curve t) -> tcurve_ids (tr_curve t) ->
  pack_traj t (Some out) = Ok msg ->
  (valid_timestamp (tm_nanos msg) <-> (0 <= tr_start_time t)%Z \/ (tr_start_time t mod 1000000000 = 0)%Z).
Proof. exact timestamp_valid. Qed.
Print Assumptions c44_timestamp_valid.

(** Packing throws for a null pointer, and does not depend on what the message held. *)
Theorem c44_destination : forall out out' out2 out2' out3 out3' out4 out4',
  (forall j, pack_two_jetl se3_wire j None = Throw /\ pack_two_jetl se3_wire j (Some out) = pack_two_jetl se3_wire j (Some out')) /\
  (forall j, pack_two_jetr se3_wire j None = Throw /\ pack_two_jetr se3_wire j (Some out) = pack_two_jetr se3_wire j (Some out')) /\
  (forall k, pack_t_curve se3_wire k None = Throw /\ pack_t_curve se3_wire k (Some out2) = pack_t_curve se3_wire k (Some out2')) /\
  (forall k, pack_d_curve k None = Throw /\ pack_d_curve k (Some out3) = pack_d_curve k (Some out3')) /\
  (forall t, pack_traj t None = Throw /\ pack_traj t (Some out4) = pack_traj t (Some out4')).
Proof. exact destinations. Qed.
Print Assumptions c44_destination.

(** Which messages are accepted.  A curve is exactly what the appends make of the control
    points, all of which must be well formed and acceptable; everything else throws. *)
Theorem c44_se3_curve_accepts : forall msg,
  (forall k, unpack_t_curve se3_ops se3_wire msg = Ok k <->
     exists ps, Forall2 (fun m p => c_time p = cm_time m /\ unpack_two_jetl se3_wire (cm_point m) = Ok (c_point p)) msg ps /\
       takes se3_ops ps ps /\ k = after_appends se3_ops ps tc_empty) /\
  ((forall k, unpack_t_curve se3_ops se3_wire msg <> Ok k) -> unpack_t_curve se3_ops se3_wire msg = Throw).
Proof. exact (t_unpack_spec se3_wire_laws). Qed.
Print Assumptions c44_se3_curve_accepts.
Theorem c44_so3_curve_accepts : forall msg,
  (forall k, unpack_t_curve so3_ops so3_wire msg = Ok k <->
     exists ps, Forall2 (fun m p => c_time p = cm_time m /\ unpack_two_jetl so3_wire (cm_point m) = Ok (c_point p)) msg ps /\
       takes so3_ops ps ps /\ k = after_appends so3_ops ps tc_empty) /\
  ((forall k, unpack_t_curve so3_ops so3_wire msg <> Ok k) -> unpack_t_curve so3_ops so3_wire msg = Throw).
Proof. exact (t_unpack_spec so3_wire_laws). Qed.
Print Assumptions c44_so3_curve_accepts.
Theorem c44_distance_curve_accepts : forall msg,
  (forall k, unpack_d_curve msg = Ok k <-> exists gs, Forall2 (fun m g => unpack_se3 m = Ok g) msg gs /\ d_takes gs gs /\ k = after_dappends gs dc_empty) /\
  ((forall k, unpack_d_curve msg <> Ok k) -> unpack_d_curve msg = Throw).
Proof. exact d_unpack_spec. Qed.
Print Assumptions c44_distance_curve_accepts.
Theorem c44_jets_accept : forall m,
  (forall j, unpack_two_jetl se3_wire m = Ok j <->
     unpack_se3 (jm_group m) = Ok (frame_from_ref j) /\ jm_d m = list6 (d_frame_from_ref j) /\ jm_d2 m = list6 (d2_frame_from_ref j)) /\
  ((forall j, unpack_two_jetl se3_wire m <> Ok j) -> unpack_two_jetl se3_wire m = Throw) /\
  (forall j, unpack_two_jetr se3_wire m = Ok j <->
     unpack_se3 (jm_group m) = Ok (ref_from_frame j) /\ jm_d m = list6 (d_ref_from_frame j) /\ jm_d2 m = list6 (d2_ref_from_frame j)) /\
  ((forall j, unpack_two_jetr se3_wire m <> Ok j) -> unpack_two_jetr se3_wire m = Throw).
Proof. exact jets_accept. Qed.
Print Assumptions c44_jets_accept.
(** A trajectory message is undefined behaviour exactly if its start time does not fit. *)
Theorem c44_trajectory_accepts : forall m,
  (forall t, unpack_traj m = Ok t <-> in64 (tm_seconds m * NANO) /\ in64 (tm_seconds m * NANO + tm_nanos m) /\
     tr_start_time t = (tm_seconds m * NANO + tm_nanos m)%Z /\ unpack_t_curve se3_ops se3_wire (tm_curve m) = Ok (tr_curve t)) /\
  (unpack_traj m = UB <-> ~ (in64 (tm_seconds m * NANO) /\ in64 (tm_seconds m * NANO + tm_nanos m))) /\
  ((forall t, unpack_traj m <> Ok t) -> unpack_traj m <> UB -> unpack_traj m = Throw).
Proof. exact traj_unpack_spec. Qed.
Print Assumptions c44_trajectory_accepts.

(** Unpacking into a curve of the caller replaces what it held.  If a control point is
    refused, the curve is left with the control points before it. *)
Theorem c44_target : (forall msg (k0 : tcurve so3 vec3),
    (forall k, unpack_t_curve_into so3_ops so3_wire msg k0 = (k, Ok tt) <-> unpack_t_curve so3_ops so3_wire msg = Ok k) /\
    ((exists k, unpack_t_curve so3_ops so3_wire msg = Ok k) \/
     exists k good bad rest, unpack_t_curve_into so3_ops so3_wire msg k0 = (k, Throw) /\ msg = good ++ bad :: rest /\
       unpack_t_curve so3_ops so3_wire good = Ok k /\ unpack_t_curve so3_ops so3_wire (good ++ [bad]) = Throw)) /\
  (forall msg (k0 : tcurve se3 tan6),
    (forall k, unpack_t_curve_into se3_ops se3_wire msg k0 = (k, Ok tt) <-> unpack_t_curve se3_ops se3_wire msg = Ok k) /\
    ((exists k, unpack_t_curve se3_ops se3_wire msg = Ok k) \/
     exists k good bad rest, unpack_t_curve_into se3_ops se3_wire msg k0 = (k, Throw) /\ msg = good ++ bad :: rest /\
       unpack_t_curve se3_ops se3_wire good = Ok k /\ unpack_t_curve se3_ops se3_wire (good ++ [bad]) = Throw)).
Proof. exact (conj (t_target so3_wire_laws) (t_target se3_wire_laws)). Qed.
Print Assumptions c44_target.

(** Not every curve comes back exactly. *)
Theorem c44_exact_refuted : exists k msg k', d_built k /\ dcurve_ids k /\ pack_d_curve k (Some []) = Ok msg /\ unpack_d_curve msg = Ok k' /\ k' <> k.
Proof. exact dcurve_changed. Qed.
Print Assumptions c44_exact_refuted.
(** Not every start time is a valid timestamp on the wire. *)
Theorem c44_timestamp_valid_refuted : exists t msg, in64 (tr_start_time t) /\ pack_traj t (Some traj_msg_default) = Ok msg /\ ~ valid_timestamp (tm_nanos msg).
Proof.
  exists (tr_of_curve tc_empty (-1)). eexists. split; [vm_compute; split; discriminate|]. split; [reflexivity|]. intros [H _]. vm_compute in H. apply H. reflexivity.
Qed.
Print Assumptions c44_timestamp_valid_refuted.
(** Nor is every valid timestamp on the wire read whose time a Timestamp can hold: those in the
    last second before the earliest whole second are undefined behaviour, and no others. *)
Theorem c44_representable : forall m, valid_timestamp (tm_nanos m) -> in64 (tm_seconds m * 10 ^ 9 + tm_nanos m) ->
  (unpack_traj m = UB <-> tm_seconds m = -9223372037)%Z.
Proof.
  intros m V I. destruct (c44_trajectory_accepts m) as (_ & U & _). rewrite U. unfold valid_timestamp, in64, INT64_MIN, INT64_MAX, NANO in *. lia.
Qed.
Print Assumptions c44_representable.
Example c44_representable_case : exists m, valid_timestamp (tm_nanos m) /\ in64 (tm_seconds m * 10 ^ 9 + tm_nanos m) /\ unpack_traj m = UB.
Proof. exists (TrajMsg (-9223372037) 500000000 []). split; [unfold valid_timestamp; cbn; lia|]. split; [vm_compute; split; discriminate|reflexivity]. Qed.

(** The curves of CurveProps, whose frames are the null frame. *)
Lemma bare_plain v : plain_pose (bare mid v).
Proof.
  left. rewrite (log_id _ (bare_wf mid v rot_mid) eq_refl). unfold norm2. cbn [trot]. vsimpl. ring.
Qed.
Lemma bare_ids m v : se3_ids (bare m v).
Proof. split; apply null_wf. Qed.
Example c44_example : (curve_wf so3_ops so3_calc cp_rot_curve /\ forall p, In p (control_pts cp_rot_curve) -> so3_ids (frame_from_ref (c_point p))) /\
  (curve_wf se3_ops se3_calc cp_move_curve /\ tcurve_ids cp_move_curve /\ tcurve_plain cp_move_curve) /\
  (d_built (bare_curve [(mid, vzero); (mid, V3 1 2 3)]) /\ dcurve_ids (bare_curve [(mid, vzero); (mid, V3 1 2 3)])) /\
  (exists m, pack_two_jetl se3_wire (cp_jet quarter_z (V3 1 2 3) vzero vzero) (Some (JetMsg lie_msg_default [1] [2; 3])) = Ok m /\ length (jm_d m) = 6%nat) /\
  unpack_traj (TrajMsg (2^62) 0 []) = UB /\ unpack_traj (TrajMsg 5 7 []) = Ok (tr_of_curve tc_empty 5000000007) /\
  unpack_traj (TrajMsg 5 7 [ControlMsg 1 jet_msg_default]) = Throw.
Proof.
  destruct cp_rot_wf as [W1 E1]. destruct cp_move_wf as [W2 E2]. split.
  - split; [exact W1|]. rewrite E1. intros p [<-|[<-|[<-|[]]]]; split; apply null_wf.
  - split.
    + split; [exact W2|]. split.
      * intros p Ip. rewrite E2 in Ip. destruct Ip as [<-|[<-|[]]]; apply bare_ids.
      * intros p Ip. rewrite E2 in Ip. destruct Ip as [<-|[<-|[]]]; apply bare_plain.
    + split.
      * destruct (bare_curve_spec [(mid, vzero); (mid, V3 1 2 3)]) as [B R]; [repeat constructor; apply rot_mid|]. split; [exact B|].
        intros p Ip. apply (in_map ref_from_control) in Ip.
        unfold refs in R. rewrite R in Ip. destruct Ip as [<-|[<-|[]]]; apply bare_ids.
      * split; [eexists; split; reflexivity|]. split; [reflexivity|]. split; reflexivity.
Qed.

(** ** C45 *)
(** A view primitive comes back with its id, kind of payload, value, file and line, and its
    name unless that is empty. *)
Theorem c45_primitive : forall v out, view_ok v -> exists m v', pack_view_primitive v (Some out) = Ok m /\ unpack_view_primitive m = Ok v' /\ view_near v v' /\
  (payload_plain (vp_payload v) -> user_defined_name v <> Some [] -> v' = v).
Proof. exact view_round. Qed.
Print Assumptions c45_primitive.
(** An update of any length comes back in order. *)
Theorem c45_update : forall u out, Forall view_ok u -> exists ms u', pack_view_update u (Some out) = Ok ms /\ unpack_view_update ms = Ok u' /\ Forall2 view_near u u' /\
  (Forall (fun v => payload_plain (vp_payload v) /\ user_defined_name v <> Some []) u -> u' = u).
Proof. exact update_round. Qed.
Print Assumptions c45_update.
(** What is accepted; a message without payload or without id throws. *)
Theorem c45_primitive_accepts : forall m,
  (forall v, unpack_view_primitive m = Ok v <-> id_text (vm_id m) (vp_id v) /\ (exists p, vm_payload m = Some p /\ unpack_payload p = Ok (vp_payload v)) /\
     name_back (Some (vm_name m)) (user_defined_name v) /\ file_name v = vm_file m /\ line_number v = vm_line m) /\
  (vm_payload m = None -> unpack_view_primitive m = Throw) /\ (not_id (vm_id m) -> unpack_view_primitive m = Throw).
Proof. exact view_unpack_spec. Qed.
Print Assumptions c45_primitive_accepts.
(** The kind of the payload is that of the message. *)
Theorem c45_payload_accepts : forall p q, unpack_payload p = Ok q <->
  match p, q with
  | MSE3 m, PSE3 g => unpack_se3 m = Ok g
  | MSO3 m, PSO3 g => unpack_so3 m = Ok g
  | MDCurve m, PDCurve k => unpack_d_curve m = Ok k
  | MTCurve m, PTCurve k => unpack_t_curve se3_ops se3_wire m = Ok k
  | MTrajectory m, PTrajectory t => unpack_traj m = Ok t
  | MFrame m, PFrame f => unpack_frame m = Ok f
  | MFramedVector m, PFramedVector v => unpack_framed_vector m = Ok v
  | _, _ => False
  end.
Proof. exact payload_accepts. Qed.
Print Assumptions c45_payload_accepts.
(** An update is accepted exactly if all its primitives are; otherwise it fails like the
    first one that is not. *)
Theorem c45_update_accepts : forall ms,
  (forall u, unpack_view_update ms = Ok u <-> Forall2 (fun m v => unpack_view_primitive m = Ok v) ms u) /\
  (forall l1 m l2, ms = l1 ++ m :: l2 -> Forall (fun m => exists v, unpack_view_primitive m = Ok v) l1 ->
     (unpack_view_primitive m = Throw -> unpack_view_update ms = Throw) /\ (unpack_view_primitive m = UB -> unpack_view_update ms = UB)).
Proof. exact update_unpack_spec. Qed.
Print Assumptions c45_update_accepts.
Theorem c45_destination : forall out out' outs outs',
  (forall v, pack_view_primitive v None = Throw /\ pack_view_primitive v (Some out) = pack_view_primitive v (Some out')) /\
  (forall u, pack_view_update u None = Throw /\ pack_view_update u (Some outs) = pack_view_update u (Some outs')).
Proof. exact (fun out out' outs outs' => conj (fun v => conj eq_refl eq_refl) (fun u => conj eq_refl eq_refl)). Qed.
Print Assumptions c45_destination.
(** A name that is present but empty is lost. *)
Theorem c45_names_kept_refuted : exists v m v', view_ok v /\ pack_view_primitive v (Some view_msg_default) = Ok m /\ unpack_view_primitive m = Ok v' /\
  user_defined_name v = Some [] /\ user_defined_name v' = None.
Proof.
  set (v := ViewPrimitive tp_from0 (PFrame null_frame) (Some []) [] 7).
  assert (V : view_ok v) by (split; [apply tp_from0_wf|apply null_wf]).
  destruct (view_round v view_msg_default V) as (m & v' & E1 & E2 & (_ & _ & N & _) & _). exists v, m, v'. auto 6.
Qed.
Print Assumptions c45_names_kept_refuted.
Example c45_example : 
  let a := ViewPrimitive tp_from0 (PTCurve cp_move_curve) None ["f"%char] 3 in
  let b := ViewPrimitive null_frame (PFramedVector (FV (V3 1 2 3) tp_from0)) (Some ["n"%char]) ["g"%char; "h"%char] (-1) in
  Forall view_ok [a; b] /\ Forall (fun v => payload_plain (vp_payload v) /\ user_defined_name v <> Some []) [a; b] /\
  unpack_view_primitive (ViewMsg (pack_uuid tp_from0) None [] [] 0) = Throw.
Proof.
  cbv zeta. split; [|split; [|reflexivity]].
  - constructor; [|constructor; [|constructor]].
    + split; [apply tp_from0_wf|]. cbn [vp_payload payload_ok]. destruct c44_example as (_ & (W & I & _) & _). split; [exact W|exact I].
    + split; [apply null_wf|apply tp_from0_wf].
  - constructor; [|constructor; [|constructor]]; (split; [|discriminate]); [|exact I]. cbn [vp_payload payload_plain]. apply c44_example.
Qed.
