(** Proofs about the example programs: distance curves. *)
From Coq Require Import Lra.
From Verif Require Import Cpp UuidModel RotSpec GeomModel DerivSpec FrameSpec ScrewSpec LieSpec FrameProofs RotProofs CoeffProofs LieProofs DiffProofs
  JetModel JetLaws CurveModel CurveSpec TCurveProofs SymProofs2 DCurveSpec DCurveProofs DCurveCases DSymSpec DSymProofs DSymProofs2 ExamModel ExamSpec.
Local Open Scope R_scope.

(** ** Turning about z *)
Lemma unit_z_unit : unit_vec unit_z. Proof. unfold unit_vec, unit_z, norm2, dot. cbn. ring. Qed.
Lemma norm_unit_z : norm unit_z = 1.
Proof. unfold unit_z, norm, norm2, dot. cbn. replace (0 * 0 + 0 * 0 + 1 * 1) with 1 by ring. apply sqrt_1. Qed.
Lemma turn_yaw a : angle_axis_matrix a unit_z = yaw a.
Proof. rewrite angle_axis_split. unfold unit_z, yaw, cross_matrix. vsimpl. f_equal; ring. Qed.
Lemma mexp_z a : mexp (vscale a unit_z) = yaw a.
Proof. rewrite mexp_unit by exact unit_z_unit. apply turn_yaw. Qed.
Lemma yaw_rot a : is_rotation (yaw a).
Proof. rewrite <- turn_yaw. apply angle_axis_rot, unit_z_unit. Qed.
Lemma yaw_0 : yaw 0 = mid.
Proof. unfold yaw. rewrite cos_0, sin_0, Ropp_0. reflexivity. Qed.
Lemma yaw_2PI : yaw (2 * PI) = mid.
Proof. unfold yaw. rewrite cos_2PI, sin_2PI, Ropp_0. reflexivity. Qed.
Lemma screw_z v x : screw unit_z v x = V3 (sin x * vx v - (1 - cos x) * vy v) (sin x * vy v + (1 - cos x) * vx v) (x * vz v).
Proof.
  unfold screw. rewrite norm_unit_z. destruct (Req_EM_T 1 0) as [H|_]; [lra|]. destruct v as [a b c]. unfold unit_z. rewrite !Rmult_1_r. vsimpl. f_equal; field.
Qed.
Lemma sin_3PI2 : sin (3 * (PI / 2)) = -1.
Proof. replace (3 * (PI / 2)) with (PI / 2 + PI) by field. rewrite neg_sin, sin_PI2. ring. Qed.
Lemma cos_3PI2 : cos (3 * (PI / 2)) = 0.
Proof. replace (3 * (PI / 2)) with (PI / 2 + PI) by field. rewrite neg_cos, cos_PI2. ring. Qed.

(** ** Curves all of whose poses have the same frames *)
Definition in_frames (i f : frame) (g : se3) : Prop := se3_wf g /\ se3_into g = i /\ se3_from g = f.
Lemma take_framed i f : forall gs, Forall (in_frames i f) gs -> d_takes gs gs.
Proof.
  induction gs as [|g gs IH] using rev_ind; intro F; [constructor|]. apply Forall_app in F as [F Fg]. inversion Fg as [|? ? (Wg & Ig & Og) _]; subst.
  apply d_takes_yes; [apply IH, F|]. destruct gs as [|h t]; [left; reflexivity|]. right.
  destruct (exists_last (l := h :: t)) as (l & b & E); [discriminate|]. exists h, t, l, b. split; [reflexivity|]. split; [exact E|].
  inversion F as [|? ? (Wh & Ih & Oh) Ft]; subst.
  split; [intros _; split; cbn; [congruence|congruence]|]. intros _ _.
  assert (In b (h :: t)) by (rewrite E; apply in_or_app; right; left; reflexivity).
  rewrite Forall_forall in F. destruct (F b H) as (_ & X & _). congruence.
Qed.
Lemma framed_curve i f gs : Forall (in_frames i f) gs ->
  exists k, dc_make gs = Ok k /\ d_built k /\ map ref_from_control (d_control_pts k) = gs.
Proof.
  intro F. assert (W : Forall se3_wf gs) by (eapply Forall_impl; [|exact F]; intros ? X; apply X).
  destruct (proj1 (d_make_spec gs W) (take_framed i f gs F)) as [E R]. eexists. split; [exact E|]. split; [exists gs; split; [exact W|reflexivity]|exact R].
Qed.
Lemma answer_frames i f k s g : d_built k -> Forall (in_frames i f) (map ref_from_control (d_control_pts k)) ->
  dc_point_at k s = Ok (Some g) -> se3_into g = i /\ se3_from g = f.
Proof.
  intros B F E. pose proof (d_built_inv k B) as I.
  destruct (list_cases (d_control_pts k)) as [E0|(l & z & E0)].
  { rewrite (proj1 (d_query k s I)) in E; [discriminate|]. right. left. rewrite E0. cbn. apply Nat.lt_0_succ. }
  destruct l as [|y l].
  { rewrite (proj1 (d_query k s I)) in E; [discriminate|]. right. left. rewrite E0. cbn. apply Nat.lt_succ_diag_r. }
  destruct (Rlt_dec s 0) as [H|H]; [rewrite (proj1 (d_query k s I)) in E; [discriminate|left; exact H]|].
  destruct (Rlt_dec (arc_length z) s) as [H'|H'].
  { rewrite (proj1 (d_query k s I)) in E; [discriminate|]. right. right. exists (arc_length z). split; [|exact H']. apply (proj2 (d_length_spec k) _ _ E0). }
  destruct (proj2 (d_query k s I) _ _ E0) as (l1 & a & b & l2 & m & E' & _ & _ & Rl & _ & Q); [discriminate|lra|].
  rewrite Q in E. destruct (fdiv _ _) as [fr|]; [|discriminate].
  assert (Nb : d_neighbours k a b) by (exists l1, l2; exact E'). destruct (d_neighbours_facts k a b I Nb) as (Wa & Wb & _).
  destruct (d_eval _ _ m fr Wa Wb Rl) as (q & g' & Eq & Eg & _ & Sf & _). rewrite Eq in E. cbn [obind] in E. rewrite Eg in E. cbn [obind] in E.
  injection E as <-. rewrite Forall_map, Forall_forall in F.
  destruct (F a) as (_ & Ia & Fa); [rewrite E'; apply in_or_app; right; left; reflexivity|].
  destruct (F b) as (_ & Ib & Fb); [rewrite E'; apply in_or_app; right; right; left; reflexivity|].
  destruct Sf as [X Y]; [split; cbn; congruence|]. cbn in X, Y. split; congruence.
Qed.
(** A framed curve on a screw about z in quarter turns, in a body frame that is turned by
    [n] from the axis. *)
Definition quarters : list R := [0; PI / 2; PI; 3 * (PI / 2); 2 * PI].
Lemma quarter_good w x y : norm w = 1 -> In (x, y) (consecutive quarters) -> good_step w x y.
Proof.
  intros N H. unfold good_step. rewrite norm2_norm, N. pose proof three_lt_PI.
  assert (y - x = PI / 2).
  { cbn [consecutive quarters In] in H. repeat destruct H as [H|H]; try (injection H as <- <-; field). destruct H. }
  split; [lra|]. split; [lra|]. right. rewrite tiny_val, H1. apply Rle_trans with (3 / 2 * (3 / 2) * (1 * 1)); [lra|].
  rewrite !Rmult_1_r. apply Rmult_le_compat; lra.
Qed.
Lemma quarter_curve i f gs m p w v : Forall (in_frames i f) gs -> is_rotation m -> 0 < norm v -> norm w = 1 ->
  Forall2 (on_screw m p w v) quarters gs ->
  exists k, dc_make gs = Ok k /\ dc_length k = Ok (2 * PI * norm v) /\
    forall a, 0 <= a <= 2 * PI -> exists g, dc_point_at k (a * norm v) = Ok (Some g) /\
      posed (/ 10^23 * (a * norm v)) (mmul m (mexp (vscale a w))) (vadd (mvec m (screw w v a)) p) i f g.
Proof.
  intros F Hm Nv Nw O. destruct (framed_curve i f gs F) as (k & Ek & B & R). exists k. split; [exact Ek|].
  rewrite <- R in O, F. destruct (steady_curve k m p w v quarters B Hm Nv eq_refl O) as (_ & L & Q).
  { intros x y H. apply quarter_good; assumption. }
  split; [exact L|]. intros a Ha. destruct (Q a) as (g & Eg & Wg & [N1 N2] & _); [cbn; auto with arith|exact Ha|].
  exists g. split; [exact Eg|]. destruct (answer_frames i f k _ g B F Eg) as [I1 I2]. split; [exact N1|]. split; [exact N2|]. split; assumption.
Qed.

(** ** The circle *)
Definition circle_pose (i f : frame) (m : mat3) (t : vec3) : se3 := SE3 (unframed m) t i f.
Lemma circle_pose_in i f m t : frames_ok i f -> is_rotation m -> in_frames i f (circle_pose i f m t).
Proof. intros F M. split; [|split; reflexivity]. split; [exact M|]. split; [exact F|]. split; reflexivity. Qed.
Definition circle_list (i f : frame) (tx ty tz r : R) : list se3 :=
  [circle_pose i f mid (V3 (r * (1 + tx)) (r * ty) (r * tz)); circle_pose i f (yaw (PI / 2)) (V3 (r * tx) (r * (1 + ty)) (r * tz));
   circle_pose i f (yaw PI) (V3 (r * (-1 + tx)) (r * ty) (r * tz)); circle_pose i f (yaw (3 * PI / 2)) (V3 (r * tx) (r * (-1 + ty)) (r * tz));
   circle_pose i f mid (V3 (r * (1 + tx)) (r * ty) (r * tz))].
Lemma unit_circle_is tx ty tz r : unit_circle tx ty tz r = Ok (circle_list null_frame null_frame tx ty tz r).
Proof. unfold unit_circle. cbn. unfold circle_list, circle_pose, unframed. rewrite !turn_yaw. reflexivity. Qed.
Lemma framed_circle_is i f tx ty tz r : i <> null_frame -> f <> null_frame -> framed_unit_circle i f tx ty tz r = Ok (circle_list i f tx ty tz r).
Proof.
  intros Ni Nf. unfold framed_unit_circle. rewrite unit_circle_is. cbn [obind].
  assert (S : forall m t, se3_set_frames (circle_pose null_frame null_frame m t) i f = Ok (circle_pose i f m t)).
  { intros. unfold se3_set_frames, circle_pose. cbn [rotation translation].
    rewrite !frame_is_null_neq by assumption. reflexivity. }
  unfold circle_list. cbn [push_each obind]. rewrite !S. reflexivity.
Qed.
Lemma circle_in i f tx ty tz r : frames_ok i f -> Forall (in_frames i f) (circle_list i f tx ty tz r).
Proof. intro F. unfold circle_list. repeat (constructor; [apply circle_pose_in; [exact F|first [apply yaw_rot|apply rot_mid]]|]). constructor. Qed.
Lemma norm_y r : norm (V3 0 r 0) = Rabs r.
Proof. unfold norm, norm2, dot. cbn. replace (0 * 0 + r * r + 0 * 0) with (Rsqr r) by (unfold Rsqr; ring). apply sqrt_Rsqr_abs. Qed.
Lemma circle_on i f tx ty tz r : Forall2 (on_screw mid (V3 (r * (1 + tx)) (r * ty) (r * tz)) unit_z (V3 0 r 0)) quarters (circle_list i f tx ty tz r).
Proof.
  unfold quarters, circle_list. repeat (constructor; [split; [cbn [circle_pose rotation rotation_matrix unframed]; rewrite mmul_1_l, mexp_z |
    unfold position; cbn [circle_pose translation]; rewrite mvec_1, screw_z; cbn [vx vy vz]; vsimpl]|]).
  all: rewrite ?sin_0, ?cos_0, ?sin_PI2, ?cos_PI2, ?sin_PI, ?cos_PI, ?sin_3PI2, ?cos_3PI2, ?sin_2PI, ?cos_2PI, ?yaw_0, ?yaw_2PI; try (f_equal; ring); try reflexivity.
  - f_equal. field.
  - constructor.
Qed.
Lemma circle_curve_ok i f tx ty tz r : frames_ok i f -> r <> 0 ->
  exists k, dc_make (circle_list i f tx ty tz r) = Ok k /\ dc_length k = Ok (2 * PI * Rabs r) /\
    forall a, 0 <= a <= 2 * PI -> exists g, dc_point_at k (a * Rabs r) = Ok (Some g) /\
      posed (/ 10^23 * (a * Rabs r)) (yaw a) (V3 (r * (cos a + tx)) (r * (sin a + ty)) (r * tz)) i f g.
Proof.
  intros F Nr. rewrite <- norm_y. assert (0 < norm (V3 0 r 0)) by (rewrite norm_y; apply Rabs_pos_lt, Nr).
  destruct (quarter_curve i f _ mid _ unit_z (V3 0 r 0) (circle_in i f tx ty tz r F) rot_mid H norm_unit_z (circle_on i f tx ty tz r)) as (k & Ek & L & Q).
  exists k. split; [exact Ek|]. split; [exact L|]. intros a Ha. destruct (Q a Ha) as (g & Eg & P). exists g. split; [exact Eg|].
  rewrite mmul_1_l, mexp_z, mvec_1, screw_z in P. cbn [vx vy vz] in P.
  replace (vadd _ _) with (V3 (r * (cos a + tx)) (r * (sin a + ty)) (r * tz)) in P; [exact P|]. vsimpl. f_equal; ring.
Qed.
