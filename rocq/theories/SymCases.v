(** Cases for the theorems on curves along one motion and on changes of frames. *)
From Verif Require Import Cpp UuidModel RotSpec GeomModel RotProofs CoeffProofs TransProtoSpec DerivSpec DerivProofs FrameSpec FrameProofs LieSpec
  ScrewSpec LieProofs DiffProofs JetModel JetSpec JetLaws JetProofs CurveModel CurveSpec CurveProofs TCurveProofs SegClose SymSpec SymProofs SymProofs2.
Local Open Scope R_scope.

(** ** Curves through two points *)
Definition duo {G T} (o : lie_ops G T) (a b : control G T) : tcurve G T := after_appends o [a; b] tc_empty.
Lemma duo_ok {G T} {o : lie_ops G T} {c : lie_calc G T} (L : lie_laws o c) a b : jet_l_wf c (c_point a) -> jet_l_wf c (c_point b) ->
  c_time a < c_time b -> same_frames o (frame_from_ref (c_point b)) (frame_from_ref (c_point a)) ->
  curve_wf o c (duo o a b) /\ control_pts (duo o a b) = [a; b] /\ neighbours (duo o a b) a b.
Proof.
  intros Wa Wb Lt F.
  assert (Tk : takes o [a; b] [a; b]).
  { change [a; b] with (([] ++ [a]) ++ [b]). apply takes_yes; [apply takes_yes; [constructor|left; reflexivity]|].
    right. exists [], a. split; [reflexivity|]. split; [exact Lt|]. destruct F. split; congruence. }
  destruct (proj1 (make_spec (o:=o) [a; b]) Tk) as [_ E]. fold (duo o a b) in E.
  split; [|split; [exact E|exists [], []; exact E]]. split; [exists [a; b]; reflexivity|]. rewrite E. intros p [<-|[<-|[]]]; assumption.
Qed.
Lemma duo_neighbours {G T} {o : lie_ops G T} a b x y : control_pts (duo o a b) = [a; b] -> neighbours (duo o a b) x y -> x = a /\ y = b.
Proof.
  intros E (l & r & X). rewrite E in X. destruct l as [|p [|q l]]; [injection X as <- <- _; auto|discriminate X|].
  destruct l; discriminate X.
Qed.

(** ** Rotation about a fixed axis *)
Definition spin (m : mat3) (v : vec3) (x : R) : so3 := unframed (mmul (mexp (vscale x v)) m).
Lemma spin_steady m v : is_rotation m -> steady so3_ops so3_calc (spin m v) v.
Proof.
  intros H x. split; [|split].
  - split; [apply rot_mmul; [apply mexp_rot|exact H]|apply frames_ok_null].
  - split; reflexivity.
  - cbn. apply (dM_eq _ _ _ _ (dM_mmul _ _ _ _ _ (dM_mexp_line (fun s => s) 1 x v (dl_id x)) (dM_const m x))).
    rewrite vscale_1. unfold spin, unframed. cbn [rotation_matrix]. rewrite <- mmul_assoc. generalize (mmul (mexp (vscale x v)) m) (mexp (vscale x v)). unfold mzero3. vring.
Qed.
(** The motion from the place 0 to the place 1, if the logarithm of the whole turn is known. *)
Lemma spin_log m v g : is_rotation m -> matrix_log (mexp v) = v ->
  motion so3_ops (rider so3_ops (spin m v) v 0 0 0) (rider so3_ops (spin m v) v 1 0 0) g -> g_log so3_ops g = t_scale so3_ops (1 - 0) v.
Proof.
  intros H Lv M. pose proof (motion_exp so3_laws (fun _ _ => Logic.I) so3_plus so3_ad_self so3_still _ v _ _ _ _ _ _ g (spin_steady m v H) M) as E.
  cbn [g_exp g_log t_scale so3_ops] in *. rewrite Rminus_0_r in *. rewrite vscale_1 in *. apply so3_exp_spec in E as [_ R].
  unfold so3_log. rewrite R. exact Lv.
Qed.
Definition turn_curve (m : mat3) (v : vec3) : tcurve so3 vec3 :=
  duo so3_ops (Control 0 (rider so3_ops (spin m v) v 0 0 0)) (Control 1 (rider so3_ops (spin m v) v 1 0 0)).
Lemma turn_ok m v : is_rotation m -> curve_wf so3_ops so3_calc (turn_curve m v) /\
  control_pts (turn_curve m v) = [Control 0 (rider so3_ops (spin m v) v 0 0 0); Control 1 (rider so3_ops (spin m v) v 1 0 0)] /\
  neighbours (turn_curve m v) (Control 0 (rider so3_ops (spin m v) v 0 0 0)) (Control 1 (rider so3_ops (spin m v) v 1 0 0)).
Proof.
  intro H. apply (duo_ok so3_laws); cbn [c_point c_time]; [apply (spin_steady m v H)|apply (spin_steady m v H)|lra|split; reflexivity].
Qed.
Lemma turn_half m v : is_rotation m -> matrix_log (mexp v) = v ->
  exists j, tc_point_at so3_ops (turn_curve m v) (1/2) = Ok j /\ frame_from_ref j = spin m v (1/2).
Proof.
  intros H Lv. destruct (turn_ok m v H) as (W & E & N). pose proof (curve_inv _ W) as I. pose proof N as (l & r & E').
  rewrite (point_at_segment so3_laws _ l _ _ r (1/2) I (fun _ _ _ _ _ => Logic.I) E') by (cbn [c_time]; lra).
  rewrite (so3_line _ v _ _ _ (1/2) 0 0 0 1 0 0 (spin_steady m v H) I N eq_refl eq_refl (fun g => spin_log m v g H Lv)).
  eexists. split; [reflexivity|]. unfold rider. cbn [frame_from_ref c_time]. f_equal. unfold place. poly. field.
Qed.

(** ** Half turns have two logarithms *)
Definition flip_z : mat3 := M3 (-1) 0 0 0 (-1) 0 0 0 1.
Definition flip_x : mat3 := M3 1 0 0 0 (-1) 0 0 0 (-1).
Lemma flip_z_rot : is_rotation flip_z.
Proof. unfold flip_z. split; [vsimpl; f_equal; ring|]. unfold det. vsimpl. ring. Qed.
Lemma flip_x_rot : is_rotation flip_x.
Proof. unfold flip_x. split; [vsimpl; f_equal; ring|]. unfold det. vsimpl. ring. Qed.
Definition half_turn : vec3 := matrix_log flip_z.
Lemma half_turn_exp : mexp half_turn = flip_z.
Proof. apply mexp_mlog, flip_z_rot. Qed.
Lemma half_turn_log : matrix_log (mexp half_turn) = half_turn.
Proof. rewrite half_turn_exp. reflexivity. Qed.
Lemma half_turn_case : exists h k k', so3_wf h /\ curve_wf so3_ops so3_calc k /\ curve_wf so3_ops so3_calc k' /\
  (forall p, In p (control_pts k) -> so3_from h = so3_into (frame_from_ref (c_point p))) /\
  correspond (fun t => t) (carried_by so3_ops h) k k' /\ ~ answer so3_ops (fun t => t) (carried_by so3_ops h) k k'.
Proof.
  exists (unframed flip_x), (turn_curve mid half_turn), (turn_curve flip_x half_turn).
  destruct (turn_ok mid half_turn rot_mid) as (W & E & _). destruct (turn_ok flip_x half_turn flip_x_rot) as (W' & E' & _).
  split; [split; [apply flip_x_rot|apply frames_ok_null]|]. split; [exact W|]. split; [exact W'|]. split.
  { rewrite E. intros p [<-|[<-|[]]]; reflexivity. }
  split.
  { unfold correspond. rewrite E, E'.
    assert (D : vscale 0 half_turn = so3_adjoint_times (unframed flip_x) (vscale 0 half_turn)).
    { unfold half_turn. generalize (matrix_log flip_z). intro u. unfold so3_adjoint_times, unframed. cbn [rotation_matrix]. unfold flip_x. vring. }
    constructor; [split; [reflexivity|]|constructor; [split; [reflexivity|]|constructor]]; (split; [|split; exact D]);
      cbn [c_point rider frame_from_ref g_mul so3_ops]; unfold spin; rewrite so3_mul_match; try apply frames_ok_null; try reflexivity;
      cbn [unframed rotation_matrix so3_into so3_from]; unfold unframed; f_equal; f_equal.
    - rewrite vscale_0, mexp_zero, mmul_1_l, mmul_1_r, mmul_1_l. reflexivity.
    - rewrite vscale_1, half_turn_exp, mmul_1_r. unfold flip_x, flip_z. vsimpl. f_equal; ring. }
  intro A. destruct (turn_half mid half_turn rot_mid half_turn_log) as (j & Ej & Fj). destruct (turn_half flip_x half_turn flip_x_rot half_turn_log) as (j' & Ej' & Fj').
  destruct (proj1 (A (1/2)) j Ej) as (j2 & Ej2 & C & _). cbv beta in Ej2. rewrite Ej' in Ej2. apply Ok_inj in Ej2. subst j2.
  rewrite Fj, Fj' in C. cbn [g_mul so3_ops] in C. unfold spin in C. rewrite so3_mul_match in C; try apply frames_ok_null; try reflexivity.
  cbn [unframed rotation_matrix] in C. apply Ok_inj in C. apply (f_equal rotation_matrix) in C. cbn [rotation_matrix unframed] in C. rewrite mmul_1_r in C.
  assert (Q : mmul (mexp (vscale (1/2) half_turn)) (mexp (vscale (1/2) half_turn)) = flip_z).
  { rewrite mexp_add. replace (1/2 + 1/2) with 1 by field. rewrite vscale_1. apply half_turn_exp. }
  revert C Q. generalize (mexp (vscale (1/2) half_turn)). intro q. destruct q as [a b c d e f g h i]. unfold flip_x, flip_z. vsimpl. intros C Q.
  injection C. injection Q. intros. nra.
Qed.

(** ** A full turn *)
Lemma z_axis_unit : unit_vec (V3 0 0 1).
Proof. unfold unit_vec, norm2. vsimpl. ring. Qed.
Lemma turn_z t : mexp (vscale t (V3 0 0 1)) = angle_axis_matrix t (V3 0 0 1).
Proof. apply mexp_unit, z_axis_unit. Qed.
Definition full_turn : vec3 := vscale (2 * PI) (V3 0 0 1).
Lemma full_turn_exp : mexp full_turn = mid.
Proof.
  unfold full_turn. rewrite turn_z, angle_axis_split, cos_2PI, sin_2PI. unfold cross_matrix. vsimpl. f_equal; ring.
Qed.
(** The smooth step. *)
Definition ramp : R -> R := quintic 0 0 0 10 (-15) 6.
Definition ramp' : R -> R := quintic 0 0 30 (-60) 30 0.
Definition ramp'' : R -> R := quintic 0 60 (-180) 120 0 0.
Lemma ramp_plan : quintic_plan ramp ramp' ramp''.
Proof.
  split; [exists 0, 0, 0, 10, (-15), 6; reflexivity|]. split; intro t.
  - eapply dl_eq; [apply dl_quintic|]. unfold ramp', quintic. ring.
  - eapply dl_eq; [apply dl_quintic|]. unfold ramp'', quintic. ring.
Qed.
Lemma ramp_ends : ramp 0 = 0 /\ ramp' 0 = 0 /\ ramp'' 0 = 0 /\ ramp 1 = 1 /\ ramp' 1 = 0 /\ ramp'' 1 = 0 /\ ramp (1/2) = 1/2.
Proof. unfold ramp, ramp', ramp'', quintic. repeat split; field. Qed.
Lemma far_case : exists P v f f' f'' k a b t, steady so3_ops so3_calc P v /\ quintic_plan f f' f'' /\ curve_wf so3_ops so3_calc k /\ neighbours k a b /\
  (forall p, p = a \/ p = b -> c_point p = rider so3_ops P v (f (c_time p)) (f' (c_time p)) (f'' (c_time p))) /\ c_time a <= t <= c_time b /\
  tc_point_at so3_ops k t <> Ok (rider so3_ops P v (f t) (f' t) (f'' t)).
Proof.
  destruct (turn_ok mid full_turn rot_mid) as (W & E & N). destruct ramp_ends as (A1 & A2 & A3 & B1 & B2 & B3 & C).
  eexists (spin mid full_turn), full_turn, ramp, ramp', ramp'', (turn_curve mid full_turn), _, _, (1/2).
  split; [apply spin_steady, rot_mid|]. split; [exact ramp_plan|]. split; [exact W|]. split; [exact N|]. split; [|split].
  - intros p [->| ->]; cbn [c_point c_time]; [rewrite A1, A2, A3|rewrite B1, B2, B3]; reflexivity.
  - cbn [c_time]. lra.
  - assert (Z : forall x, vscale x vzero = vzero) by (intro; vring).
    assert (Q0 : quintic_plan (fun _ => 0) (fun _ => 0) (fun _ => 0)).
    { split; [exists 0, 0, 0, 0, 0, 0; intro; unfold quintic; ring|]. split; intro; apply derivable_pt_lim_const. }
    rewrite (line_so3 (spin mid vzero) vzero (fun _ => 0) (fun _ => 0) (fun _ => 0) (turn_curve mid full_turn) _ _ (1/2)
      (spin_steady mid vzero rot_mid) Q0 W N).
    + intro X. apply Ok_inj in X. apply (f_equal (fun j => m00 (rotation_matrix (frame_from_ref j)))) in X. revert X.
      unfold rider, spin, unframed. cbn [frame_from_ref rotation_matrix]. rewrite Z, mexp_zero, C, mmul_1_r, mmul_1_r.
      unfold full_turn. rewrite vscale_vscale, turn_z, angle_axis_split. replace (1/2 * (2 * PI)) with PI by field. rewrite cos_PI, sin_PI.
      unfold cross_matrix. vsimpl. lra.
    + intros p [->| ->]; cbn [c_point c_time]; unfold rider, spin; cbn [t_scale so3_ops]; rewrite ?Z, ?vscale_0, ?vscale_1, ?mexp_zero, ?full_turn_exp; reflexivity.
    + rewrite Z, norm_vzero. apply PI_RGT_0.
    + cbn [c_time]. lra.
Qed.

(** ** Going back *)
Lemma so3_start_matrix sg : rotation_matrix (frame_from_ref (start_jet (o:=so3_ops) sg)) = mid.
Proof.
  destruct (start_ok so3_laws sg) as (_ & E & _). cbn [g_identity so3_ops] in E. rewrite so3_identity_eq in E by apply frames_ok_self.
  apply Ok_inj in E. rewrite <- E. reflexivity.
Qed.
Lemma so3_step_matrix sg q v j : at_frame (o:=so3_ops) (c:=so3_calc) (seg_point_frame so3_ops sg) (frame_from_ref j) ->
  rotation_matrix (frame_from_ref (step (o:=so3_ops) sg q v j)) = mmul (mexp (vscale (pc_a q) v)) (rotation_matrix (frame_from_ref j)).
Proof.
  intro A. destruct (accumulate_ok so3_laws sg q v j A) as (g & k & Eg & (Wg & _ & Fg) & Ek & E & _). unfold step. rewrite E.
  destruct A as (Wj & Ij & _). cbn [g_exp t_scale so3_ops] in Eg. apply so3_exp_spec in Eg as [_ R].
  unfold jl_mul in Ek. cbn [frame_from_ref] in Ek. apply obind_ok in Ek as (r & Er & Ek). apply Ok_inj in Ek. rewrite <- Ek. cbn [frame_from_ref].
  cbn [g_mul so3_ops] in Er. rewrite so3_mul_match in Er by (first [apply Wg|apply Wj|cbn in *; congruence]). apply Ok_inj in Er. rewrite <- Er. cbn [rotation_matrix].
  rewrite R. reflexivity.
Qed.
Lemma so3_segment_matrix sg t j : segment_wf so3_ops so3_calc sg -> seg_point_at so3_ops sg t = Ok j ->
  exists m, motion so3_ops (seg_orig sg) (seg_dest sg) m /\
  rotation_matrix (frame_from_ref j) =
    mmul (mmul (mexp (vscale (pc_a (q_d2_dest t)) (d2_frame_from_ref (seg_dest sg))))
         (mmul (mexp (vscale (pc_a (q_d2_orig t)) (d2_frame_from_ref (seg_orig sg))))
         (mmul (mexp (vscale (pc_a (q_d_dest t)) (d_frame_from_ref (seg_dest sg))))
         (mmul (mexp (vscale (pc_a (q_d_orig t)) (d_frame_from_ref (seg_orig sg))))
         (mmul (mexp (vscale (pc_a (q_dest_from_orig t)) (so3_log m))) mid))))) (rotation_matrix (frame_from_ref (seg_orig sg))).
Proof.
  intros W E. destruct (seg_point_at_eq so3_laws sg t W) as (m & g & M & Eg & Ej & _). rewrite E in Ej. apply Ok_inj in Ej. subst j.
  exists m. split; [exact M|]. cbn [jl_set_frame frame_from_ref]. destruct (rel_point_ok so3_laws sg m t) as ((_ & Fr) & _ & Fw).
  cbn [g_mul so3_ops] in Eg. rewrite so3_mul_match in Eg by (first [exact Fr|apply W|exact Fw]). apply Ok_inj in Eg. rewrite <- Eg. cbn [rotation_matrix].
  f_equal. unfold rel_point. rewrite !so3_step_matrix, so3_start_matrix by (repeat apply (step_ok so3_laws); apply (start_ok so3_laws)). reflexivity.
Qed.
Definition swing : R := 16 * PI / 5.
Definition there : tcurve so3 vec3 :=
  duo so3_ops (Control 0 (JetL (unframed mid) (V3 swing 0 0) vzero)) (Control 1 (JetL (unframed mid) (V3 0 swing 0) vzero)).
Definition back : tcurve so3 vec3 :=
  duo so3_ops (Control (-1) (JetL (unframed mid) (V3 0 (- swing) 0) vzero)) (Control 0 (JetL (unframed mid) (V3 (- swing) 0 0) vzero)).
Lemma mid_wf d e : jet_l_wf so3_calc (JetL (unframed mid) d e).
Proof. split; [apply rot_mid|apply frames_ok_null]. Qed.
Lemma pair_half ta u v : let a := Control ta (JetL (unframed mid) u vzero) in let b := Control (ta + 1) (JetL (unframed mid) v vzero) in
  exists j, tc_point_at so3_ops (duo so3_ops a b) (ta + 1/2) = Ok j /\
    rotation_matrix (frame_from_ref j) = mmul (mexp (vscale (-5/32) v)) (mexp (vscale (5/32) u)).
Proof.
  intros a b. destruct (duo_ok so3_laws a b (mid_wf _ _) (mid_wf _ _)) as (W & E & N); [cbn [a b c_time]; lra|split; reflexivity|].
  pose proof (curve_inv _ W) as I. destruct (neighbours_facts _ a b I N) as (_ & _ & _ & Wf).
  rewrite (point_at_segment so3_laws _ [] a b [] (ta + 1/2) I (fun _ _ _ _ _ => Logic.I) E) by (cbn [a b c_time]; lra).
  unfold segment_jet. replace (1 / (c_time b - c_time a) * (ta + 1/2 - c_time a)) with (1/2) by (cbn [a b c_time]; field; lra).
  destruct (seg_point_at_eq so3_laws _ (1/2) Wf) as (m0 & g0 & _ & _ & Ej & _). destruct (seg_point_at so3_ops _ (1/2)) as [j| |] eqn:Q; try discriminate Ej. clear Ej.
  cbn [obind]. eexists. split; [reflexivity|]. destruct (so3_segment_matrix _ _ _ Wf Q) as (m & (ai & Ei & Em) & R).
  unfold unnormalize, jl_set_d, jl_set_d2. cbn [frame_from_ref]. rewrite R. clear R Q.
  cbn [new_segment curve seg_orig seg_dest normalized frame_from_ref d_frame_from_ref d2_frame_from_ref a b c_point c_time] in *.
  cbn in Ei. apply Ok_inj in Ei. subst ai. cbn in Em. apply Ok_inj in Em. subst m.
  assert (Lg : forall f g, so3_log (SO3 (mmul mid (mtrans mid)) f g) = vzero).
  { intros. unfold so3_log. cbn [rotation_matrix]. rewrite mtrans_mid, mmul_1_l, <- mexp_zero. apply mlog_mexp. rewrite norm_vzero. apply PI_RGT_0. }
  unfold unframed. cbn [rotation_matrix]. rewrite ?Lg. cbn [t_scale so3_ops]. replace (ta + 1 - ta) with 1 by ring.
  rewrite !vscale_1, !vscale_zero, mexp_zero, !mmul_1_l, !mmul_1_r.
  f_equal; f_equal; f_equal; poly; field.
Qed.
Lemma round_case : exists k k', curve_wf so3_ops so3_calc k /\ curve_wf so3_ops so3_calc k' /\ turned_round k k' /\
  ~ answer so3_ops Ropp backwards k k'.
Proof.
  exists there, back.
  destruct (duo_ok so3_laws (Control 0 (JetL (unframed mid) (V3 swing 0 0) vzero)) (Control 1 (JetL (unframed mid) (V3 0 swing 0) vzero))
    (mid_wf _ _) (mid_wf _ _)) as (W & E & _); [cbn [c_time]; lra|split; reflexivity|].
  destruct (duo_ok so3_laws (Control (-1) (JetL (unframed mid) (V3 0 (- swing) 0) vzero)) (Control 0 (JetL (unframed mid) (V3 (- swing) 0 0) vzero))
    (mid_wf _ _) (mid_wf _ _)) as (W' & E' & _); [cbn [c_time]; lra|split; reflexivity|].
  fold there in W, E. fold back in W', E'. split; [exact W|]. split; [exact W'|]. split.
  { unfold turned_round. rewrite E, E'. unfold backwards. cbn [rev app].
    constructor; [|constructor; [|constructor]]; (cbn [c_time c_point frame_from_ref d_frame_from_ref d2_frame_from_ref]; split; [ring|]; split; [reflexivity|split; [unfold vneg; cbn [vx vy vz]; f_equal; ring|reflexivity]]). }
  intro A. destruct (pair_half 0 (V3 swing 0 0) (V3 0 swing 0)) as (j & Ej & R). destruct (pair_half (-1) (V3 0 (- swing) 0) (V3 (- swing) 0 0)) as (j' & Ej' & R').
  rewrite Rplus_0_l in Ej. change (duo so3_ops _ _) with there in Ej.
  replace (Control (0 + 1) (JetL (unframed mid) (V3 0 swing 0) vzero)) with (Control 1 (JetL (unframed mid) (V3 0 swing 0) vzero)) in Ej by (f_equal; ring).
  replace (Control (-1 + 1) (JetL (unframed mid) (V3 (- swing) 0 0) vzero)) with (Control 0 (JetL (unframed mid) (V3 (- swing) 0 0) vzero)) in Ej' by (f_equal; ring).
  fold there in Ej. fold back in Ej'. rewrite Rplus_0_l in Ej. replace (-1 + 1/2) with (- (1/2)) in Ej' by field.
  destruct (proj1 (A (1/2)) j Ej) as (j2 & Ej2 & C & _). rewrite Ej' in Ej2. apply Ok_inj in Ej2. subst j2. rewrite C, R in R'. clear - R'.
  replace (vscale (-5/32) (V3 0 swing 0)) with (vscale (- (PI / 2)) (V3 0 1 0)) in R' by (unfold swing; vsimpl; f_equal; field).
  replace (vscale (5/32) (V3 swing 0 0)) with (vscale (PI / 2) (V3 1 0 0)) in R' by (unfold swing; vsimpl; f_equal; field).
  replace (vscale (-5/32) (V3 (- swing) 0 0)) with (vscale (PI / 2) (V3 1 0 0)) in R' by (unfold swing; vsimpl; f_equal; field).
  replace (vscale (5/32) (V3 0 (- swing) 0)) with (vscale (- (PI / 2)) (V3 0 1 0)) in R' by (unfold swing; vsimpl; f_equal; field).
  rewrite !mexp_unit, !angle_axis_split, cos_neg, sin_neg, cos_PI2, sin_PI2 in R' by (unfold unit_vec, norm2; vsimpl; ring).
  unfold cross_matrix in R'. vsimpl. injection R'. intros. lra.
Qed.

(** ** A screw motion *)
Definition helix (w v : vec3) (x : R) : se3 := SE3 (unframed (mexp (vscale x w))) (screw w v x) null_frame null_frame.
Lemma helix_steady w v : steady se3_ops se3_calc (helix w v) (T6 w v).
Proof.
  intro x. split; [|split].
  - split; [apply mexp_rot|]. split; [apply frames_ok_null|split; reflexivity].
  - split; reflexivity.
  - split; cbn [helix rotation translation unframed rotation_matrix trot ttrans].
    + apply (dM_eq _ _ _ _ (dM_mexp_line (fun s => s) 1 x w (dl_id x))). rewrite vscale_1. reflexivity.
    + apply (dV_eq _ _ _ _ (proj2 (screw_solves w v) x)). apply vadd_comm.
Qed.

(** ** Uniform motions *)
Lemma time_plan : quintic_plan (fun t => t) (fun _ => 1) (fun _ => 0).
Proof.
  split; [exists 0, 1, 0, 0, 0, 0; intro; unfold quintic; ring|]. split; intro; [apply derivable_pt_lim_id|apply derivable_pt_lim_const].
Qed.
Lemma uniform_so3 P v k : steady so3_ops so3_calc P v -> curve_wf so3_ops so3_calc k ->
  (forall p, In p (control_pts k) -> c_point p = JetL (P (c_time p)) v vzero) ->
  (forall a b, neighbours k a b -> (c_time b - c_time a) * norm v < PI) ->
  forall t, covers k t -> tc_point_at so3_ops k t = Ok (JetL (P t) v vzero).
Proof.
  intros S W On Sm t C. pose proof (curve_inv k W) as I. destruct (point_at_eval k t I C) as (l1 & a & b & l2 & E & _ & Ht & _).
  assert (N : neighbours k a b) by (exists l1, l2; exact E). destruct (neighbours_facts k a b I N) as (Ia & Ib & Hab & _).
  assert (J : forall x, rider so3_ops P v x 1 0 = JetL (P x) v vzero) by (intro; unfold rider; cbn [t_scale so3_ops]; rewrite vscale_1, vscale_0; reflexivity).
  rewrite (line_so3 P v _ _ _ k a b t S time_plan W N); [rewrite J; reflexivity| | |exact Ht].
  - intros p [->| ->]; rewrite J; apply On; assumption.
  - rewrite norm_scale, Rabs_pos_eq by lra. exact (Sm a b N).
Qed.
Lemma uniform_straight P v k : steady se3_ops se3_calc P (T6 vzero v) -> curve_wf se3_ops se3_calc k ->
  (forall p, In p (control_pts k) -> c_point p = JetL (P (c_time p)) (T6 vzero v) tzero) ->
  forall t, covers k t -> tc_point_at se3_ops k t = Ok (JetL (P t) (T6 vzero v) tzero).
Proof.
  intros S W On t C. pose proof (curve_inv k W) as I. destruct (point_at_eval k t I C) as (l1 & a & b & l2 & E & F & Ht & _).
  assert (N : neighbours k a b) by (exists l1, l2; exact E). destruct (neighbours_facts k a b I N) as (Ia & Ib & Hab & _).
  destruct (Rle_lt_or_eq_dec _ _ (proj1 Ht)) as [H|H].
  - assert (J : forall x, rider se3_ops P (T6 vzero v) x 1 0 = JetL (P x) (T6 vzero v) tzero).
    { intro. unfold rider. cbn [t_scale se3_ops]. unfold tscale, tzero. cbn [trot ttrans]. rewrite !vscale_1, !vscale_0. reflexivity. }
    rewrite (line_straight P (T6 vzero v) _ _ _ k a b t S eq_refl time_plan W N); [rewrite J; reflexivity| |lra].
    intros p [->| ->]; rewrite J; apply On; assumption.
  - destruct F as [F|F]; [|lra]. subst l1. rewrite <- H, (point_at_first se3_laws k a b l2 I E), (On a Ia). reflexivity.
Qed.
Lemma one_radian : norm (V3 0 0 1) < PI.
Proof.
  replace (norm (V3 0 0 1)) with 1; [pose proof PI2_3_2; lra|]. unfold norm, norm2. vsimpl. replace (0 * 0 + 0 * 0 + 1 * 1) with 1 by ring. rewrite sqrt_1. reflexivity.
Qed.
Definition screw_curve : tcurve se3 tan6 := let v := T6 (V3 0 0 1) (V3 1 0 (1/2)) in let P := helix (V3 0 0 1) (V3 1 0 (1/2)) in
  duo se3_ops (Control 0 (rider se3_ops P v 0 0 0)) (Control 1 (rider se3_ops P v 1 0 0)).
Lemma screw_curve_ok : let v := T6 (V3 0 0 1) (V3 1 0 (1/2)) in let P := helix (V3 0 0 1) (V3 1 0 (1/2)) in curve_wf se3_ops se3_calc screw_curve /\
  control_pts screw_curve = [Control 0 (rider se3_ops P v 0 0 0); Control 1 (rider se3_ops P v 1 0 0)] /\
  neighbours screw_curve (Control 0 (rider se3_ops P v 0 0 0)) (Control 1 (rider se3_ops P v 1 0 0)).
Proof.
  intros v P. pose proof (helix_steady (V3 0 0 1) (V3 1 0 (1/2))) as S.
  apply (duo_ok se3_laws); cbn [c_point c_time]; [exact (proj1 (S 0))|exact (proj1 (S 1))|lra|split; reflexivity].
Qed.
Lemma radian_plain : plain_angle (norm2 (V3 0 0 1)).
Proof. right. rewrite tiny_val. unfold norm2. vsimpl. lra. Qed.
Lemma screw_case : let v := T6 (V3 0 0 1) (V3 1 0 (1/2)) in let P := helix (V3 0 0 1) (V3 1 0 (1/2)) in let k := screw_curve in
  steady se3_ops se3_calc P v /\ curve_wf se3_ops se3_calc k /\
  neighbours k (Control 0 (rider se3_ops P v (ramp 0) (ramp' 0) (ramp'' 0))) (Control 1 (rider se3_ops P v (ramp 1) (ramp' 1) (ramp'' 1))) /\
  norm (trot (tscale (ramp 1 - ramp 0) v)) < PI /\ plain_angle (norm2 (trot (tscale (ramp 1 - ramp 0) v))).
Proof.
  intros v P k. destruct ramp_ends as (A1 & A2 & A3 & B1 & B2 & B3 & C). rewrite A1, A2, A3, B1, B2, B3.
  destruct screw_curve_ok as (W & E & N). split; [apply helix_steady|]. split; [exact W|]. split; [exact N|].
  unfold v, tscale. cbn [trot]. rewrite Rminus_0_r, vscale_1. split; [exact one_radian|exact radian_plain].
Qed.
Lemma uniform_case : let v := V3 0 0 1 in let P := spin mid v in exists k,
  steady so3_ops so3_calc P v /\ curve_wf so3_ops so3_calc k /\ control_pts k = [Control 0 (JetL (P 0) v vzero); Control 1 (JetL (P 1) v vzero); Control 4 (JetL (P 4) v vzero)] /\
  (forall a b, neighbours k a b -> (c_time b - c_time a) * norm v < PI) /\ covers k 3.
Proof.
  intros v P. set (p := fun t => Control t (JetL (P t) v vzero)). exists (after_appends so3_ops [p 0; p 1; p 4] tc_empty).
  assert (Tk : takes so3_ops [p 0; p 1; p 4] [p 0; p 1; p 4]).
  { change [p 0; p 1; p 4] with ((([] ++ [p 0]) ++ [p 1]) ++ [p 4]). apply takes_yes; [apply takes_yes; [apply takes_yes; [constructor|left; reflexivity]|]|].
    - right. exists [], (p 0). split; [reflexivity|]. cbn. split; [lra|split; reflexivity].
    - right. exists [p 0], (p 1). split; [reflexivity|]. cbn. split; [lra|split; reflexivity]. }
  destruct (proj1 (make_spec (o:=so3_ops) _) Tk) as [_ E]. pose proof (spin_steady mid v rot_mid) as S. fold P in S.
  assert (Nv : norm v = 1). { unfold v, norm, norm2. vsimpl. replace (0 * 0 + 0 * 0 + 1 * 1) with 1 by ring. apply sqrt_1. }
  split; [exact S|]. split; [split; [eexists; reflexivity|]; rewrite E; intros q [<-|[<-|[<-|[]]]]; apply S|]. split; [exact E|]. split.
  - intros a b (l & r & X). rewrite E in X. rewrite Nv. pose proof PI2_3_2.
    destruct l as [|x [|y l]]; [injection X as <- <- _|injection X as _ <- <- _|exfalso; destruct l as [|z [|z' l]]; discriminate X].
    + unfold p. cbn [c_time]. lra.
    + unfold p. cbn [c_time]. pose proof three_lt_PI. lra.
  - unfold covers. rewrite E. exists (p 0), [p 1], (p 4). split; [reflexivity|]. unfold p. cbn [c_time]. lra.
Qed.

(** ** Changes of frames *)
Definition radian : mat3 := mexp (V3 0 0 1).
Lemma wf_unframed m d e : is_rotation m -> jet_l_wf so3_calc (JetL (unframed m) d e).
Proof. intro H. split; [exact H|apply frames_ok_null]. Qed.
Lemma clock_case : exists k k', curve_wf so3_ops so3_calc k /\ curve_wf so3_ops so3_calc k' /\ length (control_pts k) = 2%nat /\
  correspond (fun t => 2 * t + 1) (on_clock so3_ops 2) k k' /\ covers k (1/2).
Proof.
  set (a := Control 0 (JetL (unframed mid) (V3 1 0 0) (V3 0 4 0))). set (b := Control 1 (JetL (unframed radian) (V3 0 2 0) vzero)).
  set (a' := Control 1 (JetL (unframed mid) (V3 (1/2) 0 0) (V3 0 1 0))). set (b' := Control 3 (JetL (unframed radian) (V3 0 1 0) vzero)).
  destruct (duo_ok so3_laws a b) as (W & E & _); try apply wf_unframed; try apply rot_mid; try apply mexp_rot; [cbn; lra|split; reflexivity|].
  destruct (duo_ok so3_laws a' b') as (W' & E' & _); try apply wf_unframed; try apply rot_mid; try apply mexp_rot; [cbn; lra|split; reflexivity|].
  exists (duo so3_ops a b), (duo so3_ops a' b'). split; [exact W|]. split; [exact W'|]. rewrite E. split; [reflexivity|]. split.
  - unfold correspond. rewrite E, E'. unfold a, b, a', b', on_clock. cbn [c_time c_point frame_from_ref d_frame_from_ref d2_frame_from_ref t_scale so3_ops].
    constructor; [|constructor; [|constructor]]; (cbn [c_time c_point frame_from_ref d_frame_from_ref d2_frame_from_ref]; split; [ring|]; split; [reflexivity|]; split; unfold vscale, vzero; cbn [vx vy vz]; f_equal; field).
  - unfold covers. rewrite E. exists a, [], b. split; [reflexivity|]. unfold a, b. cbn [c_time]. lra.
Qed.
Lemma radian_rot : is_rotation radian. Proof. apply mexp_rot. Qed.
Lemma reference_case : exists g k k', g <> so3_id null_frame null_frame /\ so3_wf g /\ curve_wf so3_ops so3_calc k /\ curve_wf so3_ops so3_calc k' /\
  (forall p, In p (control_pts k) -> so3_from (frame_from_ref (c_point p)) = so3_into g) /\ length (control_pts k) = 2%nat /\
  correspond (fun t => t) (seen_from so3_ops g) k k'.
Proof.
  set (a := Control 0 (JetL (unframed mid) (V3 1 0 0) (V3 0 4 0))). set (b := Control 1 (JetL (unframed radian) (V3 0 2 0) vzero)).
  set (a' := Control 0 (JetL (unframed (mmul mid flip_x)) (V3 1 0 0) (V3 0 4 0))). set (b' := Control 1 (JetL (unframed (mmul radian flip_x)) (V3 0 2 0) vzero)).
  destruct (duo_ok so3_laws a b) as (W & E & _); try apply wf_unframed; try apply rot_mid; try apply mexp_rot; [cbn; lra|split; reflexivity|].
  destruct (duo_ok so3_laws a' b') as (W' & E' & _); try apply wf_unframed; try (apply rot_mmul; [first [apply rot_mid|apply mexp_rot]|apply flip_x_rot]); [cbn; lra|split; reflexivity|].
  exists (unframed flip_x), (duo so3_ops a b), (duo so3_ops a' b'). split.
  { intro H. apply (f_equal (fun g => m11 (rotation_matrix g))) in H. cbn in H. lra. }
  split; [split; [apply flip_x_rot|apply frames_ok_null]|]. split; [exact W|]. split; [exact W'|]. split; [rewrite E; intros p [<-|[<-|[]]]; reflexivity|].
  rewrite E. split; [reflexivity|]. unfold correspond. rewrite E, E'. constructor; [|constructor; [|constructor]]; (split; [reflexivity|]; split; [|split; reflexivity]).
  - cbn [a a' c_point frame_from_ref g_mul so3_ops]. rewrite so3_mul_match; try apply frames_ok_null; reflexivity.
  - cbn [b b' c_point frame_from_ref g_mul so3_ops]. rewrite so3_mul_match; try apply frames_ok_null; reflexivity.
Qed.
Definition carry (h : se3) (j : jet_l se3 tan6) : jet_l se3 tan6 :=
  JetL (se3_times h (frame_from_ref j) (se3_into h) (se3_from (frame_from_ref j))) (se3_adjoint_times h (d_frame_from_ref j)) (se3_adjoint_times h (d2_frame_from_ref j)).
Lemma carry_ok h j : se3_wf h -> jet_l_wf se3_calc j -> se3_from h = se3_into (frame_from_ref j) -> carried_by se3_ops h j (carry h j) /\ jet_l_wf se3_calc (carry h j).
Proof.
  intros Wh Wj F. assert (M : se3_mul h (frame_from_ref j) = Ok (frame_from_ref (carry h j))) by (apply se3_mul_match; [apply Wh|apply Wj|exact F]).
  split; [split; [exact M|split; reflexivity]|]. exact (mul_wf _ _ se3_laws _ _ _ Wh Wj M).
Qed.
Lemma point_case : exists h k k', translation h = V3 1 2 3 /\ se3_wf h /\ curve_wf se3_ops se3_calc k /\ curve_wf se3_ops se3_calc k' /\
  (forall p, In p (control_pts k) -> se3_from h = se3_into (frame_from_ref (c_point p))) /\ length (control_pts k) = 2%nat /\
  correspond (fun t => t) (carried_by se3_ops h) k k' /\
  (forall a b m, neighbours k a b -> motion se3_ops (c_point a) (c_point b) m -> norm (trot (se3_log m)) < PI /\ plain_angle (norm2 (trot (se3_log m)))).
Proof.
  set (v := T6 (V3 0 0 1) (V3 1 0 (1/2))). set (P := helix (V3 0 0 1) (V3 1 0 (1/2))). pose proof (helix_steady (V3 0 0 1) (V3 1 0 (1/2)) : steady se3_ops se3_calc P v) as S.
  set (h := SE3 (unframed flip_x) (V3 1 2 3) null_frame null_frame).
  assert (Wh : se3_wf h) by (split; [apply flip_x_rot|split; [apply frames_ok_null|split; reflexivity]]).
  set (ja := rider se3_ops P v 0 1 0). set (jb := rider se3_ops P v 1 2 3).
  assert (Wa : jet_l_wf se3_calc ja) by exact (proj1 (S 0)). assert (Wb : jet_l_wf se3_calc jb) by exact (proj1 (S 1)).
  destruct (carry_ok h ja Wh Wa eq_refl) as [Ca Wa']. destruct (carry_ok h jb Wh Wb eq_refl) as [Cb Wb'].
  destruct (duo_ok se3_laws (Control 0 ja) (Control 1 jb) Wa Wb) as (W & E & N); [cbn; lra|split; reflexivity|].
  destruct (duo_ok se3_laws (Control 0 (carry h ja)) (Control 1 (carry h jb)) Wa' Wb') as (W' & E' & N'); [cbn; lra|split; reflexivity|].
  exists h, (duo se3_ops (Control 0 ja) (Control 1 jb)), (duo se3_ops (Control 0 (carry h ja)) (Control 1 (carry h jb))).
  split; [reflexivity|]. split; [exact Wh|]. split; [exact W|]. split; [exact W'|]. split; [rewrite E; intros p [<-|[<-|[]]]; reflexivity|].
  split; [rewrite E; reflexivity|]. split.
  - unfold correspond. rewrite E, E'. constructor; [split; [reflexivity|exact Ca]|constructor; [split; [reflexivity|exact Cb]|constructor]].
  - intros a b m Nb M. destruct (duo_neighbours _ _ _ _ E Nb) as [-> ->]. cbn [c_point] in M.
    assert (Q : tscale (1 - 0) v = v) by (rewrite Rminus_0_r; unfold v, tscale; cbn [trot ttrans]; rewrite !vscale_1; reflexivity).
    rewrite (ideal_motion_log P v 0 1 0 1 2 3 m S); rewrite ?Q; try exact M; try exact one_radian; try exact radian_plain. split; [exact one_radian|exact radian_plain].
Qed.
