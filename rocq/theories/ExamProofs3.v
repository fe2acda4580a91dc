(** Proofs about the example programs: time curves. *)
From Coq Require Import Lra.
From Verif Require Import Cpp UuidModel RotSpec GeomModel RotProofs CoeffProofs TransProtoSpec DerivSpec DerivProofs FrameSpec FrameProofs LieSpec
  ScrewSpec LieProofs DiffProofs JetModel JetSpec JetLaws JetProofs CurveModel CurveSpec CurveProofs TCurveProofs SegClose DCurveSpec DCurveCases
  SymSpec SymProofs SymProofs2 SymCases ExamModel ExamSpec ExamProofs ExamProofs2.
Local Open Scope R_scope.

(** The pose of the reference frame as seen from a body on the unit circle, at the height
    [- c]. *)
Definition orbit (into from : frame) (c t : R) : se3 := SE3 (unframed (mexp (vscale (- (PI / 2 + t)) unit_z))) (V3 0 1 c) into from.
Lemma orbit_wf i f c t : frames_ok i f -> se3_wf (orbit i f c t).
Proof. intro F. split; [apply mexp_rot|]. split; [exact F|split; reflexivity]. Qed.
Lemma orbit_steady i f c : frames_ok i f -> steady se3_ops se3_calc (orbit i f c) circle_velocity.
Proof.
  intros F x. split; [apply orbit_wf, F|]. split; [split; reflexivity|]. split; cbn [orbit rotation translation unframed rotation_matrix circle_velocity trot ttrans].
  - assert (D : derivable_pt_lim (fun s => - (PI / 2 + s)) x (-1)).
    { apply (dl_eq _ _ _ _ (dl_opp _ _ _ (dl_plus _ _ _ _ _ (dl_const (PI / 2) x) (dl_id x)))). ring. }
    exact (dM_mexp_line _ _ x unit_z D).
  - apply (dV_eq _ _ _ _ (dV_const (V3 0 1 c) x)). unfold unit_z, unit_x. vsimpl. f_equal; ring.
Qed.
Definition orbit_control (i f : frame) (c t : R) : control se3 tan6 := Control t (JetL (orbit i f c t) circle_velocity tzero).
Lemma orbit_rider i f c t : rider se3_ops (orbit i f c) circle_velocity t 1 0 = JetL (orbit i f c t) circle_velocity tzero.
Proof. unfold rider. cbn [t_scale se3_ops]. unfold tscale. cbn [trot ttrans circle_velocity]. rewrite !vscale_1, !vscale_0. reflexivity. Qed.
Lemma orbit_takes i f c : takes se3_ops (map (orbit_control i f c) circle_times) (map (orbit_control i f c) circle_times).
Proof.
  pose proof PI_RGT_0 as Pi. unfold circle_times. cbn [map]. set (p := orbit_control i f c).
  change [p 0; p (PI / 2); p PI; p (3 * (PI / 2)); p (2 * PI)] with ((((([] ++ [p 0]) ++ [p (PI / 2)]) ++ [p PI]) ++ [p (3 * (PI / 2))]) ++ [p (2 * PI)]).
  repeat apply takes_yes; [constructor|left; reflexivity| | | |]; right.
  - exists [], (p 0). split; [reflexivity|]. split; [cbn; lra|split; reflexivity].
  - exists [p 0], (p (PI / 2)). split; [reflexivity|]. split; [cbn; lra|split; reflexivity].
  - exists [p 0; p (PI / 2)], (p PI). split; [reflexivity|]. split; [cbn; lra|split; reflexivity].
  - exists [p 0; p (PI / 2); p PI], (p (3 * (PI / 2))). split; [reflexivity|]. split; [cbn; lra|split; reflexivity].
Qed.
Lemma norm_circle : norm (trot circle_velocity) = 1 /\ norm (ttrans circle_velocity) = 1.
Proof.
  unfold circle_velocity, unit_x, unit_z, norm. cbn [trot ttrans].
  split; [replace (norm2 _) with 1; [apply sqrt_1|]|replace (norm2 _) with 1; [apply sqrt_1|]]; unfold norm2; vsimpl; ring.
Qed.
Lemma quarter_apart {A} (g : R -> A) l a b r : map g circle_times = l ++ a :: b :: r -> exists x, a = g x /\ b = g (x + PI / 2) /\ 0 <= x /\ x + PI / 2 <= 2 * PI.
Proof.
  pose proof PI_RGT_0 as Pi. intro E. unfold circle_times in E. cbn [map] in E.
  destruct l as [|? [|? [|? [|? l]]]]; cbn [app] in E.
  - injection E as <- <- _. exists 0. repeat split; try (f_equal; field); lra.
  - injection E as _ <- <- _. exists (PI / 2). repeat split; try (f_equal; field); lra.
  - injection E as _ _ <- <- _. exists PI. repeat split; try (f_equal; field); lra.
  - injection E as _ _ _ <- <- _. exists (3 * (PI / 2)). repeat split; try (f_equal; field); lra.
  - exfalso. injection E as _ _ _ _ E. destruct l; [discriminate|destruct l; discriminate].
Qed.
(** The curve through the orbit at quarter turns. *)
Lemma orbit_curve i f c : frames_ok i f -> exists k, tc_make se3_ops (map (orbit_control i f c) circle_times) = Ok k /\
  control_pts k = map (orbit_control i f c) circle_times /\ curve_wf se3_ops se3_calc k /\
  tc_point_at se3_ops k 0 = Ok (JetL (orbit i f c 0) circle_velocity tzero) /\
  forall t, 0 <= t <= 2 * PI -> exists j, tc_point_at se3_ops k t = Ok j /\ jet_close (/ 10^22) j (JetL (orbit i f c t) circle_velocity tzero).
Proof.
  intro F. pose proof PI_RGT_0 as Pi. pose proof (orbit_steady i f c F) as S.
  destruct (proj1 (make_spec (o:=se3_ops) (map (orbit_control i f c) circle_times)) (orbit_takes i f c)) as [Ek E].
  eexists. split; [exact Ek|]. split; [exact E|]. set (k := after_appends se3_ops (map (orbit_control i f c) circle_times) tc_empty) in *.
  assert (W : curve_wf se3_ops se3_calc k).
  { split; [eexists; reflexivity|]. rewrite E. intros p Ip. apply in_map_iff in Ip as (t & <- & _). apply orbit_wf, F. }
  split; [exact W|]. pose proof (curve_inv k W) as I.
  assert (E0 : tc_point_at se3_ops k 0 = Ok (JetL (orbit i f c 0) circle_velocity tzero)).
  { exact (point_at_first se3_laws k (orbit_control i f c 0) (orbit_control i f c (PI / 2)) _ I E). }
  split; [exact E0|]. intros t Ht. destruct (Req_dec t 0) as [->|Nt].
  { eexists. split; [exact E0|]. split; [|split; reflexivity]. split; [reflexivity|]. split; [reflexivity|]. split; [reflexivity|].
    replace (vsub _ _) with vzero by (cbn [frame_from_ref orbit translation]; vsimpl; f_equal; ring). rewrite norm_vzero. lra. }
  assert (Cv : covers k t).
  { unfold covers. rewrite E. eexists. exists [orbit_control i f c (PI / 2); orbit_control i f c PI; orbit_control i f c (3 * (PI / 2))]. eexists. split; [reflexivity|]. exact Ht. }
  destruct (point_at_eval k t I Cv) as (l1 & a & b & l2 & X & Fst & Ht' & _). assert (N : neighbours k a b) by (exists l1, l2; exact X).
  pose proof X as X'. rewrite E in X'. destruct (quarter_apart _ _ _ _ _ X') as (x & -> & -> & X0 & X1). cbn [c_time orbit_control] in Ht'.
  assert (Lt : x < t).
  { destruct Fst as [->|Lt]; [|exact Lt]. rewrite E in X. apply (f_equal (@hd_error _)) in X. cbn [map circle_times hd_error app] in X. injection X as X _. lra. }
  destruct norm_circle as [Nr Nt'].
  destruct (line_se3 (orbit i f c) circle_velocity _ _ _ k _ _ t S time_plan W N) as (s & m & j & _ & _ & _ & Ej & C & _).
  - intros p [->| ->]; rewrite orbit_rider; reflexivity.
  - cbn [c_time orbit_control]. unfold tscale. cbn [trot]. rewrite norm_scale, Nr, Rabs_pos_eq by lra. lra.
  - cbn [c_time orbit_control]. unfold tscale. cbn [trot]. right. rewrite norm2_scale, (DSymProofs.norm2_norm (trot circle_velocity)), Nr, tiny_val. replace (x + PI / 2 - x) with (PI / 2) by ring.
    pose proof three_lt_PI. apply Rle_trans with (3 / 2 * (3 / 2) * (1 * 1)); [lra|]. rewrite !Rmult_1_r. apply Rmult_le_compat; lra.
  - cbn [c_time orbit_control]. lra.
  - exists j. split; [exact Ej|]. rewrite orbit_rider in C. destruct C as ((C1 & C2 & C3 & C4) & C5). split; [|exact C5].
    split; [exact C1|]. split; [exact C2|]. split; [exact C3|]. eapply Rle_trans; [exact C4|]. cbn [c_time orbit_control]. rewrite Nt', !Rabs_R1, !Rabs_R0, Rabs_pos_eq by lra.
    replace (x + PI / 2 - x) with (PI / 2) by ring. pose proof PI_4.
    assert ((PI / 2 + PI / 2 * (1 + 1) + (PI / 2)^2 * (0 + 0)) * 1 <= 10) by lra. lra.
Qed.

(** What that says about the body as seen from the reference frame. *)
Lemma orbit_seen i f c t j : frames_ok i f -> jet_close (/ 10^22) j (JetL (orbit i f c t) circle_velocity tzero) ->
  exists g, se3_inverse (frame_from_ref j) = Ok g /\ posed (/ 10^22) (yaw (PI / 2 + t)) (V3 (cos t) (sin t) (- c)) f i g /\
    trot (d_frame_from_ref j) = V3 0 0 (-1) /\ trot (d2_frame_from_ref j) = vzero.
Proof.
  intros F ((C1 & C2 & C3 & C4) & C5 & C6). cbn [frame_from_ref orbit rotation translation se3_into se3_from d_frame_from_ref d2_frame_from_ref] in *.
  destruct j as [q d d2]. cbn [frame_from_ref d_frame_from_ref d2_frame_from_ref] in *. destruct q as [qr qt qi qf]. cbn [rotation translation se3_into se3_from] in *. subst qr qi qf.
  rewrite se3_inverse_eq by (split; [exact F|split; reflexivity]). eexists. split; [reflexivity|].
  assert (M : mtrans (mexp (vscale (- (PI / 2 + t)) unit_z)) = yaw (PI / 2 + t)).
  { rewrite <- mexp_neg. rewrite <- mexp_z. f_equal. unfold unit_z. vsimpl. f_equal; ring. }
  assert (V : mvec (yaw (PI / 2 + t)) (vneg (V3 0 1 c)) = V3 (cos t) (sin t) (- c)).
  { unfold yaw. replace (PI / 2 + t) with (PI / 2 - (- t)) by ring. rewrite sin_shift, cos_shift, sin_neg, cos_neg. vsimpl. f_equal; ring. }
  split; [|split; [rewrite C5; unfold circle_velocity, unit_z; cbn [trot]; clear; vsimpl; f_equal; ring|exact C6]].
  unfold posed, se3_inv, position, se3_mat. cbn [rotation rotation_matrix translation se3_into se3_from unframed]. rewrite M. split; [reflexivity|]. split; [|split; reflexivity].
  rewrite <- V, <- mvec_sub, rot_norm by apply yaw_rot.
  replace (vsub (vneg qt) (vneg (V3 0 1 c))) with (vneg (vsub qt (V3 0 1 c))) by vring. rewrite norm_neg. exact C4.
Qed.
Lemma circle_control_is i f t : frames_ok i f -> circle_control i f t = Ok (orbit_control i f 0 t).
Proof.
  intro F. unfold circle_control, so3_exp, so3_of_angle_axis. cbn [make_frames obind]. unfold se3_make. rewrite make_frames_ok by exact F. reflexivity.
Qed.
Lemma circle_made i f : frames_ok i f -> make_circle_curve i f = tc_make se3_ops (map (orbit_control i f 0) circle_times).
Proof. intro F. unfold make_circle_curve. rewrite (push_each_map _ (orbit_control i f 0)); [reflexivity|]. intros t _. apply circle_control_is, F. Qed.
Lemma circle_time i f : frames_ok i f -> exists k, make_circle_curve i f = Ok k /\ tc_start_time k = Ok 0 /\ tc_end_time k = Ok (2 * PI) /\
  forall t, 0 <= t <= 2 * PI -> exists j g, tc_point_at se3_ops k t = Ok j /\ se3_inverse (frame_from_ref j) = Ok g /\
    posed (/ 10^22) (yaw (PI / 2 + t)) (V3 (cos t) (sin t) 0) f i g /\ trot (d_frame_from_ref j) = V3 0 0 (-1) /\ trot (d2_frame_from_ref j) = vzero.
Proof.
  intro F. destruct (orbit_curve i f 0 F) as (k & Ek & E & W & _ & Q). exists k. rewrite circle_made by exact F. split; [exact Ek|].
  split; [unfold tc_start_time; rewrite E; reflexivity|]. split; [unfold tc_end_time; rewrite E; reflexivity|].
  intros t Ht. destruct (Q t Ht) as (j & Ej & C). destruct (orbit_seen i f 0 t j F C) as (g & Eg & P). rewrite Ropp_0 in P. exists j, g. tauto.
Qed.

(** ** Following another point of the body *)
Definition offset (s i : frame) (v : vec3) : se3 := SE3 (unframed mid) v s i.
Lemma offset_made s i v : frames_ok s i -> se3_of_translation v (Some (s, i)) = Ok (offset s i v).
Proof. intro F. unfold se3_of_translation. rewrite make_frames_ok by exact F. reflexivity. Qed.
Lemma translate_up s i f c k : frames_ok i f -> frames_ok s i -> control_pts k = map (orbit_control i f 0) circle_times ->
  translate_t_curve k (offset s i (V3 0 0 c)) = tc_make se3_ops (map (orbit_control s f c) circle_times).
Proof.
  intros F F' E. unfold translate_t_curve. rewrite E. rewrite (push_each_map _ (fun p => orbit_control s f c (c_time p))).
  - rewrite map_map. reflexivity.
  - intros p Ip. apply in_map_iff in Ip as (t & <- & _). unfold translate_control. cbn [c_point c_time orbit_control frame_from_ref d_frame_from_ref d2_frame_from_ref].
    rewrite se3_mul_match; [|split; [exact F'|split; reflexivity]|split; [exact F|split; reflexivity]|reflexivity]. cbn [obind].
    unfold se3_times, offset, orbit, orbit_control, orbit. cbn [rotation rotation_matrix unframed translation se3_into se3_from]. rewrite mmul_1_l, mvec_1.
    f_equal. f_equal. f_equal. f_equal. vsimpl. f_equal; ring.
Qed.
Lemma circle_raised s i f c : frames_ok i f -> frames_ok s i -> exists k h k', make_circle_curve i f = Ok k /\
  se3_of_translation (V3 0 0 c) (Some (s, i)) = Ok h /\ translate_t_curve k h = Ok k' /\
  forall t, 0 <= t <= 2 * PI -> exists j g, tc_point_at se3_ops k' t = Ok j /\ se3_inverse (frame_from_ref j) = Ok g /\
    posed (/ 10^22) (yaw (PI / 2 + t)) (V3 (cos t) (sin t) (- c)) f s g /\ trot (d_frame_from_ref j) = V3 0 0 (-1) /\ trot (d2_frame_from_ref j) = vzero.
Proof.
  intros F F'. assert (F2 : frames_ok s f) by (unfold frames_ok in *; tauto).
  destruct (orbit_curve i f 0 F) as (k & Ek & E & _). destruct (orbit_curve s f c F2) as (k' & Ek' & _ & _ & _ & Q).
  exists k, (offset s i (V3 0 0 c)), k'. split; [rewrite circle_made by exact F; exact Ek|]. split; [apply offset_made, F'|].
  split; [rewrite translate_up with (f := f) by assumption; exact Ek'|].
  intros t Ht. destruct (Q t Ht) as (j & Ej & C). destruct (orbit_seen s f c t j F2 C) as (g & Eg & P). exists j, g. tauto.
Qed.
(** Any other offset: the poses of the control points are right, their velocities are not. *)
Lemma translate_takes s i f v : forall l, frames_ok i f -> frames_ok s i ->
  push_each (translate_control (offset s i v)) (map (orbit_control i f 0) l) =
  Ok (map (fun t => Control t (JetL (SE3 (unframed (mexp (vscale (- (PI / 2 + t)) unit_z))) (vadd (V3 0 1 0) v) s f) circle_velocity tzero)) l).
Proof.
  intros l F F'. rewrite (push_each_map _ (fun p => Control (c_time p) (JetL (SE3 (unframed (mexp (vscale (- (PI / 2 + c_time p)) unit_z))) (vadd (V3 0 1 0) v) s f) circle_velocity tzero))).
  - rewrite map_map. reflexivity.
  - intros p Ip. apply in_map_iff in Ip as (t & <- & _). unfold translate_control. cbn [c_point c_time orbit_control frame_from_ref d_frame_from_ref d2_frame_from_ref].
    rewrite se3_mul_match; [|split; [exact F'|split; reflexivity]|split; [exact F|split; reflexivity]|reflexivity]. cbn [obind].
    unfold se3_times, offset, orbit. cbn [rotation rotation_matrix unframed translation se3_into se3_from]. rewrite mmul_1_l, mvec_1. reflexivity.
Qed.
Lemma circle_shifted s i f v : frames_ok i f -> frames_ok s i -> exists k h k' j j', make_circle_curve i f = Ok k /\
  se3_of_translation v (Some (s, i)) = Ok h /\ translate_t_curve k h = Ok k' /\
  tc_point_at se3_ops k 0 = Ok j /\ tc_point_at se3_ops k' 0 = Ok j' /\ se3_mul h (frame_from_ref j) = Ok (frame_from_ref j') /\
  (d_frame_from_ref j' = se3_adjoint_times h (d_frame_from_ref j) <-> vx v = 0 /\ vy v = 0).
Proof.
  intros F F'. pose proof PI_RGT_0 as Pi. destruct (orbit_curve i f 0 F) as (k & Ek & E & _ & E0 & _).
  set (p := fun t => Control t (JetL (SE3 (unframed (mexp (vscale (- (PI / 2 + t)) unit_z))) (vadd (V3 0 1 0) v) s f) circle_velocity tzero)).
  assert (Tk : takes se3_ops (map p circle_times) (map p circle_times)).
  { unfold circle_times. cbn [map].
    change [p 0; p (PI / 2); p PI; p (3 * (PI / 2)); p (2 * PI)] with ((((([] ++ [p 0]) ++ [p (PI / 2)]) ++ [p PI]) ++ [p (3 * (PI / 2))]) ++ [p (2 * PI)]).
    repeat apply takes_yes; [constructor|left; reflexivity| | | |]; right.
    - exists [], (p 0). split; [reflexivity|]. split; [cbn; lra|split; reflexivity].
    - exists [p 0], (p (PI / 2)). split; [reflexivity|]. split; [cbn; lra|split; reflexivity].
    - exists [p 0; p (PI / 2)], (p PI). split; [reflexivity|]. split; [cbn; lra|split; reflexivity].
    - exists [p 0; p (PI / 2); p PI], (p (3 * (PI / 2))). split; [reflexivity|]. split; [cbn; lra|split; reflexivity]. }
  destruct (proj1 (make_spec (o:=se3_ops) _) Tk) as [Ek' E']. set (k' := after_appends se3_ops (map p circle_times) tc_empty) in *.
  assert (W' : curve_wf se3_ops se3_calc k').
  { split; [eexists; reflexivity|]. rewrite E'. intros q Iq. apply in_map_iff in Iq as (t & <- & _).
    split; [apply mexp_rot|]. split; [unfold frames_ok in *; cbn; tauto|split; reflexivity]. }
  exists k, (offset s i v), k', (JetL (orbit i f 0 0) circle_velocity tzero), (c_point (p 0)). split; [rewrite circle_made by exact F; exact Ek|].
  split; [apply offset_made, F'|]. split; [unfold translate_t_curve; rewrite E, translate_takes by assumption; exact Ek'|].
  split; [exact E0|]. split; [exact (point_at_first se3_laws k' (p 0) (p (PI / 2)) _ (curve_inv k' W') E')|].
  split.
  - cbn [p c_point frame_from_ref]. rewrite se3_mul_match; [|split; [exact F'|split; reflexivity]|split; [exact F|split; reflexivity]|reflexivity].
    unfold se3_times, offset, orbit. cbn [rotation rotation_matrix unframed translation se3_into se3_from]. rewrite mmul_1_l, mvec_1. reflexivity.
  - unfold p, offset, se3_adjoint_times, circle_velocity, unit_z, unit_x. cbn [c_point d_frame_from_ref rotation rotation_matrix unframed translation trot ttrans].
    destruct v as [a b c]. vsimpl. split.
    + intro X. injection X. intros. split; lra.
    + intros [-> ->]. f_equal; f_equal; ring.
Qed.
