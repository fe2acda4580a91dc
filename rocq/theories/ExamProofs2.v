(** Proofs about the example programs: mounted sensors, the bend, and rotations. *)
From Coq Require Import Lra.
From Verif Require Import Cpp UuidModel RotSpec GeomModel DerivSpec FrameSpec ScrewSpec LieSpec FrameProofs RotProofs CoeffProofs LieProofs DiffProofs
  JetModel JetLaws CurveModel CurveSpec TCurveProofs SymProofs2 DCurveSpec DCurveProofs DCurveCases DSymSpec DSymProofs DSymProofs2 ExamModel ExamSpec ExamProofs.
Local Open Scope R_scope.

(** ** The sensor *)
Lemma push_each_map {A B} (f : A -> outcome B) (g : A -> B) l : (forall a, In a l -> f a = Ok (g a)) -> push_each f l = Ok (map g l).
Proof.
  induction l as [|a l IH]; intro H; [reflexivity|]. cbn. rewrite (H a) by (left; reflexivity). cbn [obind].
  rewrite IH by (intros; apply H; right; assumption). reflexivity.
Qed.
Lemma on_screw_mounted m p w v x rh th g g' : is_rotation rh -> on_screw m p w v x g ->
  rotation_matrix (rotation g') = mmul (rotation_matrix (rotation g)) rh ->
  translation g' = vadd (mvec (rotation_matrix (rotation g)) th) (translation g) ->
  on_screw (mmul m rh) (vadd (mvec m th) p) (mvec (mtrans rh) w) (mvec (mtrans rh) (vadd v (cross w th))) x g'.
Proof.
  intros Hr [Rg Tg] R T. pose proof (rot_mtrans rh Hr) as Ht. split.
  - rewrite R, Rg, <- mvec_scale, <- mexp_conj by exact Ht. rewrite mtrans_mtrans, !mmul_assoc.
    f_equal. rewrite <- (mmul_assoc m rh (mtrans rh)), rot_mtrans_r, mmul_1_r by exact Hr. reflexivity.
  - unfold position in *. rewrite T, Rg, Tg, screw_rot by exact Ht. rewrite <- !mvec_mmul, <- !mmul_assoc, rot_mtrans_r, mmul_1_r by exact Hr.
    rewrite screw_add_v, screw_cross, mvec_add, mvec_sub, mvec_mmul.
    generalize (mvec m (screw w v x)) (mvec m (mvec (mexp (vscale x w)) th)) (mvec m th). vring.
Qed.
Lemma sensor_curve_ok i f h : frames_ok i f -> se3_wf h -> se3_into h = f ->
  let d := norm (V3 (1 + vx (translation h)) (vy (translation h)) 0) in 0 < d ->
  exists pts k, world_from_sensor_points (circle_list i f 0 0 0 1) h = Ok pts /\ dc_make pts = Ok k /\ dc_length k = Ok (2 * PI * d) /\
    forall a, 0 <= a <= 2 * PI -> exists g, dc_point_at k (a * d) = Ok (Some g) /\
      posed (/ 10^23 * (a * d)) (mmul (yaw a) (rotation_matrix (rotation h)))
        (vadd (mvec (yaw a) (translation h)) (V3 (cos a) (sin a) 0)) i (se3_from h) g.
Proof.
  intros F Wh Eh d Pd.
  assert (Fh : frames_ok i (se3_from h)).
  { destruct Wh as (_ & Fh & _). unfold frames_ok in *. rewrite Eh in Fh. tauto. }
  set (mount := fun g => SE3 (unframed (mmul (rotation_matrix (rotation g)) (rotation_matrix (rotation h))))
                 (vadd (mvec (rotation_matrix (rotation g)) (translation h)) (translation g)) (se3_into g) (se3_from h)).
  pose proof (circle_in i f 0 0 0 1 F) as Ci.
  assert (EP : world_from_sensor_points (circle_list i f 0 0 0 1) h = Ok (map mount (circle_list i f 0 0 0 1))).
  { apply push_each_map. intros g Ig. rewrite Forall_forall in Ci. destruct (Ci g Ig) as (Wg & _ & Fg).
    rewrite se3_mul_match; [|apply Wg|apply Wh|congruence].
    reflexivity. }
  exists (map mount (circle_list i f 0 0 0 1)).
  set (v := mvec (mtrans (rotation_matrix (rotation h))) (vadd (V3 0 1 0) (cross unit_z (translation h)))).
  assert (Hh : is_rotation (rotation_matrix (rotation h))) by apply Wh.
  assert (Nv : norm v = d).
  { unfold v. rewrite rot_norm by (apply rot_mtrans, Hh). unfold d, norm, unit_z. f_equal. destruct (translation h). unfold norm2. vsimpl. ring. }
  assert (Nw : norm (mvec (mtrans (rotation_matrix (rotation h))) unit_z) = 1).
  { rewrite rot_norm by (apply rot_mtrans, Hh). apply norm_unit_z. }
  destruct (quarter_curve i (se3_from h) (map mount (circle_list i f 0 0 0 1)) (mmul mid (rotation_matrix (rotation h)))
    (vadd (mvec mid (translation h)) (V3 (1 * (1 + 0)) (1 * 0) (1 * 0))) (mvec (mtrans (rotation_matrix (rotation h))) unit_z) v) as (k & Ek & L & Q).
  - rewrite Forall_map. eapply Forall_impl; [|exact Ci]. intros g (Wg & Ig & _). split; [|split; [exact Ig|reflexivity]].
    split; [apply rot_mmul; [apply Wg|exact Hh]|]. unfold mount. split; [cbn; rewrite Ig; exact Fh|split; reflexivity].
  - rewrite mmul_1_l. exact Hh.
  - rewrite Nv. exact Pd.
  - exact Nw.
  - pose proof (circle_on i f 0 0 0 1) as O. revert O. generalize (circle_list i f 0 0 0 1) quarters. intros l xs O.
    induction O as [|x g xs l Og O IH]; [constructor|]. constructor; [|exact IH]. apply (on_screw_mounted mid _ unit_z (V3 0 1 0) x _ _ g); [exact Hh|exact Og|reflexivity|reflexivity].
  - exists k. split; [exact EP|]. split; [exact Ek|]. rewrite Nv in L, Q. split; [exact L|]. intros a Ha. destruct (Q a Ha) as (g & Eg & P).
    exists g. split; [exact Eg|]. rewrite mmul_1_l, mvec_1 in P.
    rewrite <- mvec_scale in P.
    assert (E1 : mmul (rotation_matrix (rotation h)) (mexp (mvec (mtrans (rotation_matrix (rotation h))) (vscale a unit_z))) = mmul (yaw a) (rotation_matrix (rotation h))).
    { rewrite <- mexp_conj by (apply rot_mtrans, Hh). rewrite mtrans_mtrans, !mmul_assoc, rot_mtrans_r, mmul_1_l, mexp_z by exact Hh. reflexivity. }
    rewrite E1 in P. unfold v in P. rewrite screw_rot in P by (apply rot_mtrans, Hh).
    rewrite <- mvec_mmul, rot_mtrans_r, mvec_1, screw_add_v, screw_cross, mexp_z, screw_z in P by exact Hh. cbn [vx vy vz] in P.
    replace (vadd (mvec (yaw a) (translation h)) (V3 (cos a) (sin a) 0)) with
      (vadd (vadd (V3 (sin a * 0 - (1 - cos a) * 1) (sin a * 1 + (1 - cos a) * 0) (a * 0)) (vsub (mvec (yaw a) (translation h)) (translation h)))
         (vadd (translation h) (V3 (1 * (1 + 0)) (1 * 0) (1 * 0)))); [exact P|].
    generalize (mvec (yaw a) (translation h)) (translation h). intros [? ? ?] [? ? ?]. vsimpl. f_equal; ring.
Qed.

(** ** The bend *)
Lemma norm_x : norm (V3 1 0 0) = 1.
Proof. unfold norm, norm2, dot. cbn. replace (1 * 1 + 0 * 0 + 0 * 0) with 1 by ring. apply sqrt_1. Qed.
Lemma straight_good x y : x < y -> good_step vzero x y.
Proof. intro H. unfold good_step, plain_angle. rewrite norm_vzero. pose proof PI_RGT_0. split; [exact H|]. split; [lra|]. left. unfold norm2. vsimpl. ring. Qed.
Lemma bend_good w x y : norm w = 1 -> y - x = PI / 2 -> good_step w x y.
Proof.
  intros N E. unfold good_step. rewrite norm2_norm, N, E. pose proof three_lt_PI. split; [lra|]. split; [lra|]. right. rewrite tiny_val.
  apply Rle_trans with (3 / 2 * (3 / 2) * (1 * 1)); [lra|]. rewrite !Rmult_1_r. apply Rmult_le_compat; lra.
Qed.
Lemma screw_minus_z v x : screw (vneg unit_z) v x = V3 (sin x * vx v + (1 - cos x) * vy v) (sin x * vy v - (1 - cos x) * vx v) (x * vz v).
Proof.
  replace (vneg unit_z) with (vscale (-1) unit_z) by (unfold unit_z; vsimpl; f_equal; ring).
  replace v with (vscale (-1) (vneg v)) at 1 by vring. rewrite screw_scale, screw_z. replace (-1 * x) with (- x) by ring. rewrite sin_neg, cos_neg.
  destruct v. vsimpl. f_equal; ring.
Qed.
Lemma norm_minus_z : norm (vneg unit_z) = 1.
Proof. unfold norm. replace (norm2 (vneg unit_z)) with 1; [apply sqrt_1|]. unfold unit_z, norm2. vsimpl. ring. Qed.
Lemma mexp_minus_z a : mexp (vscale a (vneg unit_z)) = yaw (- a).
Proof. rewrite <- mexp_z. f_equal. unfold unit_z. vsimpl. f_equal; ring. Qed.
Lemma yaw_mul a b : mmul (yaw a) (yaw b) = yaw (a + b).
Proof. unfold yaw. vsimpl. rewrite cos_plus, sin_plus. f_equal; ring. Qed.
Lemma bend_ok i f : frames_ok i f -> exists pts k, s_bend i f = Ok pts /\ dc_make pts = Ok k /\ dc_length k = Ok (2 + PI) /\
  forall z,
    (0 <= z <= 1 -> exists g, dc_point_at k z = Ok (Some g) /\ posed (/ 10^23 * z) mid (V3 z 0 0) i f g) /\
    (0 < z <= PI / 2 -> exists g, dc_point_at k (1 + z) = Ok (Some g) /\ posed (/ 10^23 * z) (yaw z) (V3 (1 + sin z) (1 - cos z) 0) i f g) /\
    (0 < z <= 1 -> exists g, dc_point_at k (1 + PI / 2 + z) = Ok (Some g) /\ posed (/ 10^23 * z) (yaw (PI / 2)) (V3 2 (1 + z) 0) i f g) /\
    (0 < z <= PI / 2 -> exists g, dc_point_at k (2 + PI / 2 + z) = Ok (Some g) /\
       posed (/ 10^23 * z) (yaw (PI / 2 - z)) (V3 (3 - cos z) (2 + sin z) 0) i f g).
Proof.
  intro F. pose proof (fun m t => circle_pose_in i f m t F) as In.
  set (a := circle_pose i f mid vzero). set (b := circle_pose i f mid (V3 1 0 0)). set (c := circle_pose i f (yaw (PI / 2)) (V3 2 1 0)).
  set (d := circle_pose i f (yaw (PI / 2)) (V3 2 2 0)). set (e := circle_pose i f mid (V3 3 3 0)). pose proof PI_RGT_0 as Pi.
  assert (Fr : make_frames (Some (i, f)) = Ok (i, f)) by (apply make_frames_ok; exact F).
  exists [a; b; c; d; e].
  assert (EP : s_bend i f = Ok [a; b; c; d; e]).
  { unfold s_bend, se3_identity, se3_of_translation, se3_make, so3_identity, so3_of_matrix, so3_of_angle_axis. rewrite Fr. cbn [obind make_frames].
    change (V3 0 0 1) with unit_z. rewrite turn_yaw. reflexivity. }
  assert (FF : Forall (in_frames i f) [a; b; c; d; e]).
  { repeat (constructor; [apply In; first [apply yaw_rot|apply rot_mid]|]). constructor. }
  destruct (framed_curve i f _ FF) as (k & Ek & B & R). exists k. split; [exact EP|]. split; [exact Ek|].
  destruct (d_control_pts k) as [|pa [|pb [|pc [|pd [|pe [|? ?]]]]]] eqn:E; try discriminate R. cbn [map] in R. injection R as Ra Rb Rc Rd Re.
  assert (FF' : Forall (in_frames i f) (map ref_from_control (d_control_pts k))) by (rewrite E; cbn [map]; rewrite Ra, Rb, Rc, Rd, Re; exact FF).
  pose proof (d_built_inv k B) as I. assert (A0 : arc_length pa = 0) by (destruct I as (_ & I2 & _); exact (proj1 (I2 pa _ E))).
  assert (Nx : 0 < norm (V3 1 0 0)) by (rewrite norm_x; lra).
  pose proof (fun z => steady_segment k [] pa pb [pc; pd; pe] mid vzero vzero (V3 1 0 0) 0 1 z B E rot_mid Nx) as S1.
  pose proof (fun z => steady_segment k [pa] pb pc [pd; pe] mid (V3 1 0 0) unit_z (V3 1 0 0) 0 (PI / 2) z B E rot_mid Nx) as S2.
  pose proof (fun z => steady_segment k [pa; pb] pc pd [pe] (yaw (PI / 2)) (V3 2 1 0) vzero (V3 1 0 0) 0 1 z B E (yaw_rot _) Nx) as S3.
  pose proof (fun z => steady_segment k [pa; pb; pc] pd pe [] (yaw (PI / 2)) (V3 2 2 0) (vneg unit_z) (V3 1 0 0) 0 (PI / 2) z B E (yaw_rot _) Nx) as S4.
  rewrite Ra, Rb in S1. rewrite Rb, Rc in S2. rewrite Rc, Rd in S3. rewrite Rd, Re in S4. rewrite norm_x in S1, S2, S3, S4.
  assert (SZ : forall x, screw vzero (V3 1 0 0) x = V3 x 0 0) by (intro; rewrite screw_zero_w; vsimpl; f_equal; ring).
  assert (ZV : forall x, vscale x vzero = vzero) by (intro; vsimpl; f_equal; ring).
  assert (Y90 : forall t, mvec (yaw (PI / 2)) t = V3 (- vy t) (vx t) (vz t)).
  { intros [? ? ?]. unfold yaw. rewrite cos_PI2, sin_PI2. vsimpl. f_equal; ring. }
  assert (Oa : on_screw mid vzero vzero (V3 1 0 0) 0 a).
  { split; [cbn; rewrite ZV, mexp_zero, mmul_1_l; reflexivity|]. unfold position. cbn. rewrite SZ. vsimpl. f_equal; ring. }
  assert (Ob : on_screw mid vzero vzero (V3 1 0 0) 1 b).
  { split; [cbn; rewrite ZV, mexp_zero, mmul_1_l; reflexivity|]. unfold position. cbn. rewrite SZ. vsimpl. f_equal; ring. }
  assert (Ob' : on_screw mid (V3 1 0 0) unit_z (V3 1 0 0) 0 b).
  { split; [cbn; rewrite mexp_z, yaw_0, mmul_1_l; reflexivity|]. unfold position. cbn. rewrite screw_z, sin_0, cos_0. vsimpl. f_equal; ring. }
  assert (Oc : on_screw mid (V3 1 0 0) unit_z (V3 1 0 0) (PI / 2) c).
  { split; [cbn; rewrite mexp_z, mmul_1_l; reflexivity|]. unfold position. cbn [circle_pose translation c]. rewrite mvec_1, screw_z, sin_PI2, cos_PI2. vsimpl. f_equal; ring. }
  assert (Oc' : on_screw (yaw (PI / 2)) (V3 2 1 0) vzero (V3 1 0 0) 0 c).
  { split; [cbn; rewrite ZV, mexp_zero, mmul_1_r; reflexivity|]. unfold position. cbn [circle_pose translation c]. rewrite SZ, Y90. vsimpl. f_equal; ring. }
  assert (Od : on_screw (yaw (PI / 2)) (V3 2 1 0) vzero (V3 1 0 0) 1 d).
  { split; [cbn; rewrite ZV, mexp_zero, mmul_1_r; reflexivity|]. unfold position. cbn [circle_pose translation d]. rewrite SZ, Y90. vsimpl. f_equal; ring. }
  assert (Od' : on_screw (yaw (PI / 2)) (V3 2 2 0) (vneg unit_z) (V3 1 0 0) 0 d).
  { split; [cbn [circle_pose rotation rotation_matrix unframed d]; rewrite mexp_minus_z, yaw_mul; f_equal; ring|]. unfold position. cbn [circle_pose translation d].
    rewrite screw_minus_z, Y90, sin_0, cos_0. vsimpl. f_equal; ring. }
  assert (Oe : on_screw (yaw (PI / 2)) (V3 2 2 0) (vneg unit_z) (V3 1 0 0) (PI / 2) e).
  { split; [cbn [circle_pose rotation rotation_matrix unframed e]; rewrite mexp_minus_z, yaw_mul, <- yaw_0; f_equal; ring|]. unfold position. cbn [circle_pose translation e].
    rewrite screw_minus_z, Y90, sin_PI2, cos_PI2. vsimpl. f_equal; ring. }
  assert (G1 : good_step vzero 0 1) by (apply straight_good; lra).
  assert (G2 : good_step unit_z 0 (PI / 2)) by (apply bend_good; [apply norm_unit_z|lra]).
  assert (G4 : good_step (vneg unit_z) 0 (PI / 2)) by (apply bend_good; [apply norm_minus_z|lra]).
  assert (L1 : arc_length pb = 1) by (destruct (S1 0 Oa Ob G1 ltac:(lra) (or_introl eq_refl)) as [X _]; lra).
  assert (L2 : arc_length pc = 1 + PI / 2) by (destruct (S2 1 Ob' Oc G2 ltac:(pose proof three_lt_PI; lra) ltac:(right; lra)) as [X _]; lra).
  assert (L3 : arc_length pd = 2 + PI / 2) by (destruct (S3 1 Oc' Od G1 ltac:(lra) ltac:(right; lra)) as [X _]; lra).
  assert (L4 : arc_length pe = 2 + PI) by (destruct (S4 1 Od' Oe G4 ltac:(pose proof three_lt_PI; lra) ltac:(right; lra)) as [X _]; lra).
  split. { rewrite (proj2 (d_length_spec k) [pa; pb; pc; pd] pe E). rewrite L4. reflexivity. }
  assert (Fin : forall s g m p eps, dc_point_at k s = Ok (Some g) -> rotation_matrix (rotation g) = m -> norm (vsub (position g) p) <= eps -> posed eps m p i f g).
  { intros s g m p eps Eg Rg Pg. destruct (answer_frames i f k s g B FF' Eg). repeat split; assumption. }
  intro z. split; [|split; [|split]]; intro Hz.
  - destruct (S1 z Oa Ob G1 Hz (or_introl eq_refl)) as (_ & g & Eg & _ & _ & [N1 N2] & _).
    replace (arc_length pa + (z - 0) * 1) with z in Eg by (rewrite A0; ring). exists g. split; [exact Eg|]. apply (Fin _ _ _ _ _ Eg).
    + rewrite N1, ZV, mexp_zero, mmul_1_l. reflexivity.
    + replace ((z - 0) * 1) with z in N2 by ring. rewrite SZ in N2. replace (vadd _ _) with (V3 z 0 0) in N2; [exact N2|]. vsimpl. f_equal; ring.
  - destruct (S2 z Ob' Oc G2 ltac:(lra) ltac:(right; lra)) as (_ & g & Eg & _ & _ & [N1 N2] & _).
    replace (arc_length pb + (z - 0) * 1) with (1 + z) in Eg by (rewrite L1; ring). exists g. split; [exact Eg|]. apply (Fin _ _ _ _ _ Eg).
    + rewrite N1, mexp_z, mmul_1_l. reflexivity.
    + replace ((z - 0) * 1) with z in N2 by ring. rewrite screw_z in N2. replace (vadd _ _) with (V3 (1 + sin z) (1 - cos z) 0) in N2; [exact N2|]. vsimpl. f_equal; ring.
  - destruct (S3 z Oc' Od G1 ltac:(lra) ltac:(right; lra)) as (_ & g & Eg & _ & _ & [N1 N2] & _).
    replace (arc_length pc + (z - 0) * 1) with (1 + PI / 2 + z) in Eg by (rewrite L2; ring). exists g. split; [exact Eg|]. apply (Fin _ _ _ _ _ Eg).
    + rewrite N1, ZV, mexp_zero, mmul_1_r. reflexivity.
    + replace ((z - 0) * 1) with z in N2 by ring. rewrite SZ, Y90 in N2. replace (vadd _ _) with (V3 2 (1 + z) 0) in N2; [exact N2|]. vsimpl. f_equal; ring.
  - destruct (S4 z Od' Oe G4 ltac:(lra) ltac:(right; lra)) as (_ & g & Eg & _ & _ & [N1 N2] & _).
    replace (arc_length pd + (z - 0) * 1) with (2 + PI / 2 + z) in Eg by (rewrite L3; ring). exists g. split; [exact Eg|]. apply (Fin _ _ _ _ _ Eg).
    + rewrite N1, mexp_minus_z, yaw_mul. f_equal.
    + replace ((z - 0) * 1) with z in N2 by ring. rewrite screw_minus_z, Y90 in N2. replace (vadd _ _) with (V3 (3 - cos z) (2 + sin z) 0) in N2; [exact N2|]. vsimpl. f_equal; ring.
Qed.

(** ** Rotations *)
Lemma interped_ok epsilon fraction axis : 0 < epsilon < PI / 2 -> unit_vec axis -> exists g, interped_rotation epsilon fraction axis = Ok g /\
  rotation_matrix g = angle_axis_matrix (PI + (2 * fraction - 1) * epsilon) axis /\ so3_into g = null_frame /\ so3_from g = null_frame.
Proof.
  intros He U. unfold interped_rotation, so3_of_angle_axis. cbn [make_frames obind]. unfold so3_inverse, so3_of_matrix. cbn [so3_from so3_into rotation_matrix].
  assert (Mk : make_frames (Some (null_frame, null_frame)) = Ok (null_frame, null_frame)) by (apply make_frames_ok; apply frames_ok_null).
  rewrite Mk. cbn [obind].
  change (SO3 (mtrans (angle_axis_matrix (PI - epsilon) axis)) null_frame null_frame) with (unframed (mtrans (angle_axis_matrix (PI - epsilon) axis))).
  change (SO3 (angle_axis_matrix (- PI + epsilon) axis) null_frame null_frame) with (unframed (angle_axis_matrix (- PI + epsilon) axis)).
  rewrite so3_mul_unframed'. cbn [obind].
  assert (M : mmul (mtrans (angle_axis_matrix (PI - epsilon) axis)) (angle_axis_matrix (- PI + epsilon) axis) = mexp (vscale (2 * epsilon) axis)).
  { rewrite <- !mexp_unit by exact U. rewrite <- mexp_neg.
    replace (vneg (vscale (PI - epsilon) axis)) with (vscale (- PI + epsilon) axis) by vring. rewrite mexp_add, !mexp_unit by exact U.
    unfold angle_axis_matrix. replace (- PI + epsilon + (- PI + epsilon)) with (2 * epsilon - 2 * PI) by ring.
    assert (C : forall x, cos (x - 2 * PI) = cos x) by (intro; rewrite cos_minus, cos_2PI, sin_2PI; ring).
    assert (S : forall x, sin (x - 2 * PI) = sin x) by (intro; rewrite sin_minus, cos_2PI, sin_2PI; ring).
    rewrite C, S. reflexivity. }
  rewrite M. unfold so3_interp, so3_log. cbn [rotation_matrix unframed so3_into so3_from].
  rewrite mlog_mexp.
  2:{ rewrite norm_scale, Rabs_pos_eq by lra. replace (norm axis) with 1; [lra|]. unfold norm. rewrite U, sqrt_1. reflexivity. }
  unfold so3_exp, so3_of_angle_axis. rewrite Mk. cbn [obind].
  change (SO3 (angle_axis_matrix (PI - epsilon) axis) null_frame null_frame) with (unframed (angle_axis_matrix (PI - epsilon) axis)).
  change (SO3 (angle_axis_matrix (norm (vscale fraction (vscale (2 * epsilon) axis))) (Vec.normalized (vscale fraction (vscale (2 * epsilon) axis)))) null_frame null_frame)
    with (unframed (mexp (vscale fraction (vscale (2 * epsilon) axis)))).
  rewrite so3_mul_unframed'. eexists. split; [reflexivity|]. cbn [rotation_matrix unframed so3_into so3_from]. split; [|split; reflexivity].
  rewrite vscale_vscale, mexp_unit, angle_axis_add by exact U. f_equal. ring.
Qed.
Lemma euler_is phi theta psi : euler_rotation phi theta psi =
  Ok (unframed (mmul (mmul (angle_axis_matrix phi (V3 1 0 0)) (angle_axis_matrix theta (V3 0 1 0))) (angle_axis_matrix psi (V3 0 0 1)))).
Proof. reflexivity. Qed.
Lemma wrong_is phi theta psi : wrong_rotation phi theta psi = Ok (unframed (mexp (V3 phi theta psi))).
Proof. reflexivity. Qed.
Lemma same_is phi theta psi : same_rotation (euler_rotation phi theta psi) (wrong_rotation phi theta psi) <->
  mmul (mmul (angle_axis_matrix phi (V3 1 0 0)) (angle_axis_matrix theta (V3 0 1 0))) (angle_axis_matrix psi (V3 0 0 1)) = mexp (V3 phi theta psi).
Proof.
  rewrite euler_is, wrong_is. split.
  - intros (g & h & A & B & C). apply Ok_inj in A. apply Ok_inj in B. subst. exact C.
  - intro E. eexists. eexists. split; [reflexivity|]. split; [reflexivity|]. exact E.
Qed.
Lemma euler_product phi theta psi :
  mmul (mmul (angle_axis_matrix phi (V3 1 0 0)) (angle_axis_matrix theta (V3 0 1 0))) (angle_axis_matrix psi (V3 0 0 1)) =
  M3 (cos theta * cos psi) (- (cos theta * sin psi)) (sin theta)
     (sin phi * sin theta * cos psi + cos phi * sin psi) (cos phi * cos psi - sin phi * sin theta * sin psi) (- (sin phi * cos theta))
     (sin phi * sin psi - cos phi * sin theta * cos psi) (cos phi * sin theta * sin psi + sin phi * cos psi) (cos phi * cos theta).
Proof.
  assert (X : angle_axis_matrix phi (V3 1 0 0) = M3 1 0 0 0 (cos phi) (- sin phi) 0 (sin phi) (cos phi))
    by (rewrite angle_axis_split; unfold cross_matrix; vsimpl; f_equal; ring).
  assert (Y : angle_axis_matrix theta (V3 0 1 0) = M3 (cos theta) 0 (sin theta) 0 1 0 (- sin theta) 0 (cos theta))
    by (rewrite angle_axis_split; unfold cross_matrix; vsimpl; f_equal; ring).
  rewrite X, Y. change (V3 0 0 1) with unit_z. rewrite turn_yaw. unfold yaw, mmul. cbn [m00 m01 m02 m10 m11 m12 m20 m21 m22]. f_equal; ring.
Qed.
Lemma euler_one phi theta psi : (phi = 0 /\ theta = 0) \/ (phi = 0 /\ psi = 0) \/ (theta = 0 /\ psi = 0) ->
  same_rotation (euler_rotation phi theta psi) (wrong_rotation phi theta psi).
Proof.
  intro H. apply same_is. assert (A0 : forall u, angle_axis_matrix 0 u = mid) by (intro; apply angle_axis_0).
  destruct H as [[-> ->]|[[-> ->]|[-> ->]]]; rewrite !A0, ?mmul_1_l, ?mmul_1_r.
  - replace (V3 0 0 psi) with (vscale psi (V3 0 0 1)) by (vsimpl; f_equal; ring). symmetry. apply mexp_unit. unfold unit_vec, norm2. vsimpl. ring.
  - replace (V3 0 theta 0) with (vscale theta (V3 0 1 0)) by (vsimpl; f_equal; ring). symmetry. apply mexp_unit. unfold unit_vec, norm2. vsimpl. ring.
  - replace (V3 phi 0 0) with (vscale phi (V3 1 0 0)) by (vsimpl; f_equal; ring). symmetry. apply mexp_unit. unfold unit_vec, norm2. vsimpl. ring.
Qed.
Lemma mexp_polar v : norm v <> 0 -> mexp v = angle_axis_matrix (norm v) (vscale (/ norm v) v).
Proof.
  intro N. assert (U : unit_vec (vscale (/ norm v) v)).
  { unfold unit_vec. rewrite norm2_scale, norm2_norm. field. exact N. }
  rewrite <- mexp_unit by exact U. rewrite vscale_vscale, Rinv_r, vscale_1 by exact N. reflexivity.
Qed.
Lemma cos_lt_1 x : 0 < x < 2 * PI -> cos x < 1.
Proof.
  intro H. pose proof (sin_gt_0 (x / 2)) as S. replace x with (2 * (x / 2)) by field. rewrite cos_2a_sin.
  assert (0 < sin (x / 2)) by (apply S; lra). assert (0 < sin (x / 2) * sin (x / 2)) by (apply Rmult_lt_0_compat; assumption). lra.
Qed.
Lemma euler_two phi theta psi : (phi = 0 /\ theta <> 0 /\ psi <> 0) \/ (theta = 0 /\ phi <> 0 /\ psi <> 0) \/ (psi = 0 /\ phi <> 0 /\ theta <> 0) ->
  norm (V3 phi theta psi) < 2 * PI -> ~ same_rotation (euler_rotation phi theta psi) (wrong_rotation phi theta psi).
Proof.
  intros H L. rewrite same_is. set (n := norm (V3 phi theta psi)) in *.
  assert (N : 0 < n).
  { apply norm_pos. intro E. injection E as -> -> ->. tauto. }
  pose proof (cos_lt_1 n (conj N L)) as C. rewrite euler_product, mexp_polar, angle_axis_split by (fold n; lra). fold n. unfold cross_matrix. vsimpl.
  intro E. assert (Q : forall a b : R, a <> 0 -> b <> 0 -> (1 - cos n) * (/ n * a * (/ n * b)) <> 0).
  { intros a b Ha Hb. assert (/ n <> 0) by (apply Rinv_neq_0_compat; lra). repeat apply Rmult_integral_contrapositive_currified; assumption || lra. }
  destruct H as [(-> & Ht & Hp)|[(-> & Hf & Hp)|(-> & Hf & Ht)]].
  - injection E as _ _ _ _ _ E _ _ _. rewrite sin_0 in E. apply (Q theta psi Ht Hp). lra.
  - injection E as _ _ E _ _ _ _ _ _. rewrite sin_0 in E. apply (Q phi psi Hf Hp). lra.
  - injection E as _ E _ _ _ _ _ _ _. rewrite sin_0 in E. apply (Q phi theta Hf Ht). lra.
Qed.
Lemma euler_three : same_rotation (euler_rotation (2 * PI) (4 * PI) (4 * PI)) (wrong_rotation (2 * PI) (4 * PI) (4 * PI)).
Proof.
  assert (C4 : cos (4 * PI) = 1) by (replace (4 * PI) with (0 + 2 * INR 2 * PI) by (cbn; ring); rewrite cos_period; apply cos_0).
  assert (S4 : sin (4 * PI) = 0) by (replace (4 * PI) with (0 + 2 * INR 2 * PI) by (cbn; ring); rewrite sin_period; apply sin_0).
  apply same_is. rewrite euler_product, C4, S4, cos_2PI, sin_2PI. pose proof PI_RGT_0 as Pi.
  replace (V3 (2 * PI) (4 * PI) (4 * PI)) with (vscale (6 * PI) (V3 (1/3) (2/3) (2/3))) by (vsimpl; f_equal; field).
  assert (C6 : cos (6 * PI) = 1) by (replace (6 * PI) with (0 + 2 * INR 3 * PI) by (cbn; ring); rewrite cos_period; apply cos_0).
  assert (S6 : sin (6 * PI) = 0) by (replace (6 * PI) with (0 + 2 * INR 3 * PI) by (cbn; ring); rewrite sin_period; apply sin_0).
  rewrite mexp_unit by (unfold unit_vec, norm2; vsimpl; field). rewrite angle_axis_split, C6, S6. unfold cross_matrix. vsimpl. f_equal; field.
Qed.
