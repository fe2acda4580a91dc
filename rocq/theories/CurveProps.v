(** Time curves: C31, C32, C33, C34, C35.  Theorems about a [curve_group] are about SO3
    and about SE3. *)
From Verif Require Import Cpp UuidModel RotSpec GeomModel DerivSpec FrameSpec ScrewSpec LieSpec CoeffProofs RotProofs FrameProofs LieProofs
  JetModel JetSpec JetLaws CurveModel CurveSpec CurveProofs TCurveProofs SegClose DCurveCases.
Local Open Scope R_scope.

(** ** C31 *)
(** The three numbers of each coefficient function are one function and its derivatives. *)
Theorem c31_true_derivatives : jet_of_function q_dest_from_orig /\ jet_of_function q_d_orig /\ jet_of_function q_d_dest /\
  jet_of_function q_d2_orig /\ jet_of_function q_d2_dest.
Proof. exact q_jets. Qed.
Print Assumptions c31_true_derivatives.

(** Each function has exactly one non-zero boundary condition, which is one. *)
Theorem c31_boundary_values :
  hermite_data (fun t => pc_a (q_dest_from_orig t)) 0 0 0 1 0 0 /\
  hermite_data (fun t => pc_a (q_d_orig t)) 0 1 0 0 0 0 /\
  hermite_data (fun t => pc_a (q_d_dest t)) 0 0 0 0 1 0 /\
  hermite_data (fun t => pc_a (q_d2_orig t)) 0 0 1 0 0 0 /\
  hermite_data (fun t => pc_a (q_d2_dest t)) 0 0 0 0 0 1.
Proof. exact q_hermite. Qed.
Print Assumptions c31_boundary_values.

(** They are polynomials of degree at most five, the only ones with these conditions. *)
Theorem c31_unique_quintics : forall f, In f [q_dest_from_orig; q_d_orig; q_d_dest; q_d2_orig; q_d2_dest] ->
  exists c0 c1 c2 c3 c4 c5, c5 <> 0 /\ (forall t, pc_a (f t) = quintic c0 c1 c2 c3 c4 c5 t) /\
  forall b0 b1 b2 b3 b4 b5 v0 d0 e0 v1 d1 e1, hermite_data (fun t => pc_a (f t)) v0 d0 e0 v1 d1 e1 ->
    hermite_data (quintic b0 b1 b2 b3 b4 b5) v0 d0 e0 v1 d1 e1 -> forall t, quintic b0 b1 b2 b3 b4 b5 t = pc_a (f t).
Proof. exact q_unique. Qed.
Print Assumptions c31_unique_quintics.

Example c31_example : pc_a (q_dest_from_orig (1/2)) = 1/2 /\ pc_da (q_dest_from_orig (1/2)) = 15/8 /\ pc_a (q_d_orig (1/2)) = 5/32.
Proof. repeat split; poly; lra. Qed.

(** ** C32 *)
(** A segment can be built exactly if its end points have the same frames. *)
Theorem c32_segment_frames : forall G T (o : lie_ops G T) a b,
  (same_frames o (frame_from_ref a) (frame_from_ref b) <-> make_segment o a b = Ok (TCurveSegment a b)) /\
  (~ same_frames o (frame_from_ref a) (frame_from_ref b) <-> make_segment o a b = Throw).
Proof. exact make_segment_iff. Qed.
Print Assumptions c32_segment_frames.

(** Every query of a segment succeeds and has the frames of its end points. *)
Theorem c32_total : forall G T (o : lie_ops G T) (c : lie_calc G T), curve_group o c -> forall s t, segment_wf o c s ->
  exists j, seg_point_at o s t = Ok j /\ jet_l_wf c j /\ same_frames o (frame_from_ref j) (frame_from_ref (seg_orig s)).
Proof. exact (fun G T o c H => segment_total (group_laws G T o c H)). Qed.
Print Assumptions c32_total.

(** The start is always met, pose and derivatives. *)
Theorem c32_start : forall G T (o : lie_ops G T) (c : lie_calc G T), curve_group o c -> forall s, segment_wf o c s ->
  seg_point_at o s 0 = Ok (seg_orig s).
Proof. exact (fun G T o c H => seg_at_0 (group_laws G T o c H)). Qed.
Print Assumptions c32_start.

(** The end is met if exp undoes log on the motion of the segment: for SO3 always. *)
Theorem c32_end : forall G T (o : lie_ops G T) (c : lie_calc G T), curve_group o c -> forall s, segment_wf o c s ->
  exact_motion o c (seg_orig s) (seg_dest s) -> seg_point_at o s 1 = Ok (seg_dest s).
Proof. exact (fun G T o c H => seg_at_1 (group_laws G T o c H)). Qed.
Print Assumptions c32_end.
Theorem c32_end_so3 : forall s, segment_wf so3_ops so3_calc s -> seg_point_at so3_ops s 1 = Ok (seg_dest s).
Proof. exact (fun s W => seg_at_1 so3_laws s W (fun _ _ => I)). Qed.
Print Assumptions c32_end_so3.

(** For SE3, derivatives, rotation and frames are always met, and the position up to
    1e-15 of the distance; all of it if the relative rotation is zero or not tiny. *)
Theorem c32_end_se3 : forall s m, segment_wf se3_ops se3_calc s -> motion se3_ops (seg_orig s) (seg_dest s) m ->
  exists g, seg_point_at se3_ops s 1 = Ok (JetL g (d_frame_from_ref (seg_dest s)) (d2_frame_from_ref (seg_dest s))) /\
    pose_close (/ 10^15 * norm (translation m)) g (frame_from_ref (seg_dest s)) /\
    (plain_angle (norm2 (trot (se3_log m))) -> g = frame_from_ref (seg_dest s)).
Proof. exact seg_end_close. Qed.
Print Assumptions c32_end_se3.

(** Turning about z while moving. *)
Definition cp_jet (m : mat3) (t v a : vec3) : jet_l se3 tan6 := JetL (bare m t) (T6 (V3 0 0 1) v) (T6 (V3 1 0 0) a).
Definition cp_segment : tcurve_segment se3 tan6 :=
  TCurveSegment (cp_jet mid (V3 1 2 3) (V3 1 0 0) (V3 0 1 0)) (cp_jet quarter_z (V3 3 2 1) (V3 0 1 0) (V3 0 0 2)).
Lemma cp_segment_wf : segment_wf se3_ops se3_calc cp_segment.
Proof. split; [apply bare_wf, rot_mid|]. split; [apply bare_wf, quarter_z_rot|]. split; reflexivity. Qed.
Example c32_example : segment_wf se3_ops se3_calc cp_segment /\
  make_segment se3_ops (seg_orig cp_segment) (seg_dest cp_segment) = Ok cp_segment /\
  exists m, motion se3_ops (seg_orig cp_segment) (seg_dest cp_segment) m.
Proof.
  split; [exact cp_segment_wf|]. split; [reflexivity|].
  destruct (motion_ok se3_laws _ cp_segment_wf) as (_ & m & _ & _ & M & _). exists m. exact M.
Qed.

(** ** C33 *)
(** Segments: the reported derivatives are those of the reported pose wherever the
    increments are exact. *)
Theorem c33_segment : forall G T (o : lie_ops G T) (c : lie_calc G T), curve_group o c -> forall s J t, segment_wf o c s ->
  (forall x, seg_point_at o s x = Ok (J x)) -> exact_at o c s t -> true_derivatives c J t.
Proof. exact (fun G T o c H s J t W E X => proj1 (seg_sound (group_laws G T o c H) s J t W E X)). Qed.
Print Assumptions c33_segment.

(** Curves, strictly between neighbouring control points, in curve time. *)
Theorem c33_curve : forall G T (o : lie_ops G T) (c : lie_calc G T), curve_group o c -> forall k a b s J t,
  curve_wf o c k -> exact_motions o c k -> neighbours k a b -> joins o a b s -> c_time a < t < c_time b ->
  (forall x, covers k x -> tc_point_at o k x = Ok (J x)) -> exact_at o c (curve s) ((t - c_time a) / (c_time b - c_time a)) ->
  true_derivatives c J t /\ tangent_continuous c (fun x => d2_frame_from_ref (J x)) t.
Proof. exact (fun G T o c H => curve_segment_smooth o c (group_laws G T o c H)). Qed.
Print Assumptions c33_curve.

(** SO3 curves are twice continuously differentiable everywhere inside, control times
    included, with the reported derivatives. *)
Theorem c33_so3_curve_c2 : forall k J t, curve_wf so3_ops so3_calc k -> inside k t ->
  (forall x, covers k x -> tc_point_at so3_ops k x = Ok (J x)) ->
  true_derivatives so3_calc J t /\ tangent_continuous so3_calc (fun x => d2_frame_from_ref (J x)) t.
Proof. exact (fun k J t W I E => curve_smooth so3_laws k J t (fun _ _ => Logic.I) (curve_inv k W) (fun _ _ _ _ _ => Logic.I) I E). Qed.
Print Assumptions c33_so3_curve_c2.

(** An SE3 curve whose relative rotations are zero or not tiny follows a twice
    continuously differentiable curve [J] through its control points: rotations and
    rotational derivatives are those of [J], positions differ by at most 1e-23 of the
    distances of the increments, and there is no difference where no increment has a
    tiny rotation. *)
Theorem c33_se3_curve_follows_c2 : forall k : tcurve se3 tan6, curve_wf se3_ops se3_calc k -> (2 <= length (control_pts k))%nat ->
  exact_motions se3_ops se3_calc k ->
  exists J, (forall t, inside k t -> true_derivatives se3_calc J t /\ tangent_continuous se3_calc (fun s => d2_frame_from_ref (J s)) t) /\
    (forall p, In p (control_pts k) -> J (c_time p) = c_point p) /\
    forall t, covers k t -> exists a b s m j, neighbours k a b /\ c_time a <= t <= c_time b /\ In s (segments k) /\ joins se3_ops a b s /\
      motion se3_ops (c_point a) (c_point b) m /\ tc_point_at se3_ops k t = Ok j /\
      let l := increments (curve s) m ((t - c_time a) / (c_time b - c_time a)) in
      jet_close (/ 10^23 * travel l) j (J t) /\ (Forall (fun v => plain_angle (norm2 (trot v))) l -> j = J t).
Proof. exact se3_curve_ideal. Qed.
Print Assumptions c33_se3_curve_follows_c2.

(** A rotation curve through three points, and an SE3 curve that does not turn. *)
Definition cp_rot (t : R) (m : mat3) (w a : vec3) : control so3 vec3 := Control t (JetL (unframed m) w a).
Definition cp_rots : list (control so3 vec3) :=
  [cp_rot 0 mid (V3 0 0 1) vzero; cp_rot 1 quarter_z (V3 1 0 0) (V3 0 2 0); cp_rot 3 mid vzero (V3 1 1 1)].
Definition cp_rot_curve : tcurve so3 vec3 := after_appends so3_ops cp_rots tc_empty.
Definition cp_move (t : R) (p v a : vec3) : control se3 tan6 := Control t (JetL (bare mid p) (T6 vzero v) (T6 vzero a)).
Definition cp_moves : list (control se3 tan6) := [cp_move 1 vzero (V3 1 0 0) vzero; cp_move 3 (V3 1 2 3) (V3 0 1 0) (V3 0 0 1)].
Definition cp_move_curve : tcurve se3 tan6 := after_appends se3_ops cp_moves tc_empty.
Lemma cp_rot_takes : takes so3_ops cp_rots cp_rots.
Proof.
  change cp_rots with ((([] ++ [nth 0 cp_rots (cp_rot 0 mid vzero vzero)]) ++ [nth 1 cp_rots (cp_rot 0 mid vzero vzero)]) ++ [nth 2 cp_rots (cp_rot 0 mid vzero vzero)]).
  apply takes_yes; [apply takes_yes; [apply takes_yes; [constructor|left; reflexivity]|]|].
  - right. eexists _, _. split; [reflexivity|]. cbn. split; [lra|split; reflexivity].
  - right. eexists _, _. split; [reflexivity|]. cbn. split; [lra|split; reflexivity].
Qed.
Lemma cp_move_takes : takes se3_ops cp_moves cp_moves.
Proof.
  change cp_moves with (([] ++ [nth 0 cp_moves (cp_move 0 vzero vzero vzero)]) ++ [nth 1 cp_moves (cp_move 0 vzero vzero vzero)]).
  apply takes_yes; [apply takes_yes; [constructor|left; reflexivity]|].
  right. eexists _, _. split; [reflexivity|]. cbn. split; [lra|split; reflexivity].
Qed.
Lemma cp_rot_wf : curve_wf so3_ops so3_calc cp_rot_curve /\ control_pts cp_rot_curve = cp_rots.
Proof.
  destruct (proj1 (make_spec (o:=so3_ops) cp_rots) cp_rot_takes) as [_ E]. split; [|exact E].
  split; [exists cp_rots; reflexivity|]. unfold cp_rot_curve. rewrite E. intros p [<-|[<-|[<-|[]]]];
    (split; [first [apply rot_mid|apply quarter_z_rot]|apply frames_ok_null]).
Qed.
Lemma cp_move_wf : curve_wf se3_ops se3_calc cp_move_curve /\ control_pts cp_move_curve = cp_moves.
Proof.
  destruct (proj1 (make_spec (o:=se3_ops) cp_moves) cp_move_takes) as [_ E]. split; [|exact E].
  split; [exists cp_moves; reflexivity|]. unfold cp_move_curve. rewrite E. intros p [<-|[<-|[]]]; apply bare_wf, rot_mid.
Qed.
Lemma cp_move_exact : exact_motions se3_ops se3_calc cp_move_curve.
Proof.
  destruct cp_move_wf as [_ E]. intros a b (l & r & X) m (ai & Ei & Em). rewrite E in X.
  assert (In a cp_moves /\ In b cp_moves) as [Ia Ib].
  { rewrite X. split; apply in_or_app; right; [left; reflexivity|right; left; reflexivity]. }
  assert (Wm : se3_wf m /\ rotation_matrix (rotation m) = mid).
  { destruct Ia as [<-|[<-|[]]], Ib as [<-|[<-|[]]]; cbn in Ei, Em; injection Ei as <-; cbn in Em; injection Em as <-;
      (split; [apply bare_wf|]; cbn; rewrite ?mtrans_mid, ?mmul_1_l; try apply rot_mid; reflexivity). }
  left. cbn [g_log se3_ops]. rewrite (log_id m (proj1 Wm) (proj2 Wm)). unfold norm2. cbn [trot]. vsimpl. ring.
Qed.
Example c33_example : (curve_wf so3_ops so3_calc cp_rot_curve /\ inside cp_rot_curve 1) /\
  (curve_wf se3_ops se3_calc cp_move_curve /\ exact_motions se3_ops se3_calc cp_move_curve /\ inside cp_move_curve 2 /\
   exists a b s, neighbours cp_move_curve a b /\ joins se3_ops a b s /\ c_time a < 2 < c_time b /\ exact_at se3_ops se3_calc (curve s) (1/2)).
Proof.
  destruct cp_rot_wf as [W E]. split.
  - split; [exact W|]. unfold inside. rewrite E. eexists _, [_], _. split; [reflexivity|]. cbn. lra.
  - destruct cp_move_wf as [W' E']. split; [exact W'|]. split; [exact cp_move_exact|]. split.
    + unfold inside. rewrite E'. eexists _, [], _. split; [reflexivity|]. cbn. lra.
    + exists (cp_move 1 vzero (V3 1 0 0) vzero), (cp_move 3 (V3 1 2 3) (V3 0 1 0) (V3 0 0 1)),
        (new_segment (o:=se3_ops) (cp_move 1 vzero (V3 1 0 0) vzero) (cp_move 3 (V3 1 2 3) (V3 0 1 0) (V3 0 0 1))).
      assert (N : neighbours cp_move_curve (cp_move 1 vzero (V3 1 0 0) vzero) (cp_move 3 (V3 1 2 3) (V3 0 1 0) (V3 0 0 1)))
        by (exists [], []; exact E').
      split; [exact N|]. split; [apply (new_segment_joins se3_laws)|]. cbn [cp_move c_time]. split; [lra|].
      split; [|repeat split; left; unfold new_segment; cbn; vring].
      intros m M. left. pose proof (cp_move_exact _ _ N m M) as P.
      destruct M as (ai & Ei & Em). cbn in Ei, Em. injection Ei as <-. cbn in Em. injection Em as <-.
      cbn [g_log se3_ops]. rewrite log_id; [reflexivity|apply bare_wf|]; cbn; rewrite ?mtrans_mid, ?mmul_1_l; try apply rot_mid; reflexivity.
Qed.

(** ** C34 *)
(** An append succeeds exactly if the point is acceptable; otherwise it throws and leaves
    the curve as it was.  This holds for every value of the curve object. *)
Theorem c34_append : forall G T (o : lie_ops G T) p (k : tcurve G T),
  (snd (tc_append o p k) = Ok tt <-> acceptable o (control_pts k) p) /\
  (snd (tc_append o p k) = Throw <-> ~ acceptable o (control_pts k) p) /\
  (acceptable o (control_pts k) p -> control_pts (fst (tc_append o p k)) = control_pts k ++ [p]) /\
  (~ acceptable o (control_pts k) p -> fst (tc_append o p k) = k).
Proof. exact (fun G T o => append_iff (o:=o)). Qed.
Print Assumptions c34_append.

(** After any history of appends, failed or not, the control points are the acceptable
    ones in order, times strictly increase, frames agree, and there is one segment per
    pair of neighbours, which joins them. *)
Theorem c34_history : forall G T (o : lie_ops G T) (c : lie_calc G T), curve_group o c -> forall ps,
  let k := after_appends o ps tc_empty in
  takes o ps (control_pts k) /\ StronglySorted (fun a b => c_time a < c_time b) (control_pts k) /\
  (forall a b, In a (control_pts k) -> In b (control_pts k) -> same_frames o (frame_from_ref (c_point a)) (frame_from_ref (c_point b))) /\
  Forall2 (fun ab s => joins o (fst ab) (snd ab) s) (consecutive (control_pts k)) (segments k).
Proof. exact (fun G T o c H => build_history (group_laws G T o c H)). Qed.
Print Assumptions c34_history.
Theorem c34_history_determines : forall G T (o : lie_ops G T) ps a b, takes o ps a -> takes o ps b -> a = b.
Proof. exact (fun G T o => takes_fun (o:=o)). Qed.
Print Assumptions c34_history_determines.

(** Appending a list is appending its elements until one is not acceptable; the ones
    before it stay. *)
Theorem c34_append_list : forall G T (o : lie_ops G T) ps (k : tcurve G T),
  (exists k', tc_append_list o ps k = (k', Ok tt) /\ control_pts k' = control_pts k ++ ps /\ k' = after_appends o ps k /\
     forall l p r, ps = l ++ p :: r -> acceptable o (control_pts k ++ l) p) \/
  (exists l p r, ps = l ++ p :: r /\ ~ acceptable o (control_pts k ++ l) p /\
     control_pts (after_appends o l k) = control_pts k ++ l /\ tc_append_list o ps k = (after_appends o l k, Throw)).
Proof. exact (fun G T o => append_list_spec (o:=o)). Qed.
Print Assumptions c34_append_list.

(** Construction from a list succeeds exactly if all points are taken. *)
Theorem c34_construction : forall G T (o : lie_ops G T) ps,
  (takes o ps ps -> tc_make o ps = Ok (after_appends o ps tc_empty) /\ control_pts (after_appends o ps tc_empty) = ps) /\
  (~ takes o ps ps -> tc_make o ps = Throw).
Proof. exact (fun G T o => make_spec (o:=o)). Qed.
Print Assumptions c34_construction.

(** A history with a refused point: the second one is not later than the first. *)
Example c34_example : takes so3_ops cp_rots cp_rots /\
  ~ acceptable so3_ops [cp_rot 0 mid vzero vzero] (cp_rot 0 quarter_z vzero vzero) /\
  takes so3_ops [cp_rot 0 mid vzero vzero; cp_rot 0 quarter_z vzero vzero] [cp_rot 0 mid vzero vzero].
Proof.
  assert (N : ~ acceptable so3_ops [cp_rot 0 mid vzero vzero] (cp_rot 0 quarter_z vzero vzero)).
  { intros [E|(l & b & E & Lt & _)]; [discriminate E|]. change [cp_rot 0 mid vzero vzero] with ([] ++ [cp_rot 0 mid vzero vzero]) in E.
    apply app_last_inj in E as [_ <-]. cbn in Lt. lra. }
  split; [exact cp_rot_takes|]. split; [exact N|].
  apply (takes_no so3_ops [cp_rot 0 mid vzero vzero]); [|exact N].
  apply (takes_yes so3_ops [] [] (cp_rot 0 mid vzero vzero)); [constructor|left; reflexivity].
Qed.

(** ** C35 *)
(** A query throws exactly outside the covered times or with fewer than two points;
    otherwise it gives a genuine two-jet with the frames of the curve. *)
Theorem c35_throws : forall G T (o : lie_ops G T) (c : lie_calc G T), curve_group o c -> forall k t, curve_wf o c k ->
  (tc_point_at o k t = Throw <-> ~ covers k t \/ (length (control_pts k) < 2)%nat) /\
  (covers k t -> (2 <= length (control_pts k))%nat -> exists j, tc_point_at o k t = Ok j /\ jet_l_wf c j /\
     forall p, In p (control_pts k) -> same_frames o (frame_from_ref j) (frame_from_ref (c_point p))).
Proof. exact (fun G T o c H k t W => point_at_throws (group_laws G T o c H) k t (curve_inv k W)). Qed.
Print Assumptions c35_throws.

(** The segment used is the one between the neighbours around the time; a control time
    belongs to the segment before, the first one to the first segment. *)
Theorem c35_segment_of_time : forall G T (o : lie_ops G T) (c : lie_calc G T), curve_group o c -> forall k l1 a b l2 t,
  curve_wf o c k -> control_pts k = l1 ++ a :: b :: l2 -> (l1 = [] \/ c_time a < t) -> c_time a <= t <= c_time b ->
  exists s j, In s (segments k) /\ joins o a b s /\ seg_point_at o (curve s) ((t - c_time a) / (c_time b - c_time a)) = Ok j /\
    tc_point_at o k t = Ok (JetL (frame_from_ref j) (t_scale o (1 / (c_time b - c_time a)) (d_frame_from_ref j))
      (t_scale o (1 / (c_time b - c_time a)^2) (d2_frame_from_ref j))).
Proof. exact (fun G T o c H => curve_segment_value o c (group_laws G T o c H)). Qed.
Print Assumptions c35_segment_of_time.

(** Control points are met, pose and derivatives. *)
Theorem c35_control_points : forall G T (o : lie_ops G T) (c : lie_calc G T), curve_group o c -> forall k p, curve_wf o c k ->
  exact_motions o c k -> (2 <= length (control_pts k))%nat -> In p (control_pts k) -> tc_point_at o k (c_time p) = Ok (c_point p).
Proof. exact (fun G T o c H k p W => point_at_control (group_laws G T o c H) k p (curve_inv k W)). Qed.
Print Assumptions c35_control_points.
Theorem c35_first_control_point : forall G T (o : lie_ops G T) (c : lie_calc G T), curve_group o c -> forall k a b l, curve_wf o c k ->
  control_pts k = a :: b :: l -> tc_point_at o k (c_time a) = Ok (c_point a).
Proof. exact (fun G T o c H k a b l W => point_at_first (group_laws G T o c H) k a b l (curve_inv k W)). Qed.
Print Assumptions c35_first_control_point.
Theorem c35_control_points_se3 : forall (k : tcurve se3 tan6) a b m, curve_wf se3_ops se3_calc k -> neighbours k a b ->
  motion se3_ops (c_point a) (c_point b) m ->
  exists g, tc_point_at se3_ops k (c_time b) = Ok (JetL g (d_frame_from_ref (c_point b)) (d2_frame_from_ref (c_point b))) /\
    pose_close (/ 10^15 * norm (translation m)) g (frame_from_ref (c_point b)) /\
    (plain_angle (norm2 (trot (se3_log m))) -> g = frame_from_ref (c_point b)).
Proof. exact curve_control_close. Qed.
Print Assumptions c35_control_points_se3.

(** The accessors: first and last control time, and the frames that all control points and
    segments have in common.  Only a curve without control points has no answer. *)
Theorem c35_accessors : forall G T (o : lie_ops G T) (c : lie_calc G T), curve_group o c -> forall k, curve_wf o c k ->
  (control_pts k = [] -> tc_start_time k = Throw /\ tc_end_time k = Throw /\ tc_is_framed o k = Throw /\ tc_reference_frame o k = Throw /\ tc_point_frame o k = Throw) /\
  (forall a l, control_pts k = a :: l -> tc_start_time k = Ok (c_time a)) /\
  (forall l b, control_pts k = l ++ [b] -> tc_end_time k = Ok (c_time b)) /\
  (forall p, In p (control_pts k) -> let into := g_into o (frame_from_ref (c_point p)) in let from := g_from o (frame_from_ref (c_point p)) in
     tc_reference_frame o k = Ok from /\ tc_point_frame o k = Ok into /\
     (exists b, tc_is_framed o k = Ok b /\ (b = true <-> into <> null_frame)) /\
     forall s, In s (segments k) -> seg_reference_frame o (curve s) = from /\ seg_point_frame o (curve s) = into /\
       (seg_is_framed o (curve s) = true <-> into <> null_frame)).
Proof. exact access_wf. Qed.
Print Assumptions c35_accessors.

Example c35_example : curve_wf so3_ops so3_calc cp_rot_curve /\ exact_motions so3_ops so3_calc cp_rot_curve /\
  length (control_pts cp_rot_curve) = 3%nat /\ covers cp_rot_curve 2 /\ ~ covers cp_rot_curve 4.
Proof.
  destruct cp_rot_wf as [W E]. split; [exact W|]. split; [intros a b _ m _; exact I|]. rewrite E. split; [reflexivity|]. unfold covers. rewrite E. split.
  - eexists _, [_], _. split; [reflexivity|]. cbn. lra.
  - intros (a & l & b & X & Ht). unfold cp_rots in X. injection X as <- X.
    destruct l as [|x [|y l]]; cbn in X; try discriminate X.
    + injection X as _ <-. cbn in Ht. lra.
    + destruct l; discriminate X.
Qed.
