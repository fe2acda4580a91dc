(** Proofs about SO3 and SE3 as groups, exponential, logarithm, adjoint, interpolation. *)
From Verif Require Import Cpp UuidModel RotSpec GeomModel RotProofs CoeffProofs ScrewSpec TransProtoModel FrameSpec LieSpec FrameProofs.
Local Open Scope R_scope.

Lemma so3_identity_eq i f : frames_ok i f -> so3_identity (Some (i, f)) = Ok (so3_id i f).
Proof. apply so3_of_matrix_some. Qed.
Lemma se3_identity_eq i f : frames_ok i f -> se3_identity (Some (i, f)) = Ok (se3_id i f).
Proof. intro H. unfold se3_identity. cbn [so3_identity so3_of_matrix make_frames obind]. 
  rewrite se3_make_some by exact H. reflexivity. Qed.

(** Product of values whose inner frames agree, framed or not. *)
Lemma so3_mul_match a b : so3_framing a -> so3_framing b -> so3_from a = so3_into b ->
  so3_mul a b = Ok (SO3 (mmul (rotation_matrix a) (rotation_matrix b)) (so3_into a) (so3_from b)).
Proof.
  intros Fa Fb E. destruct (so3_is_framed a) eqn:Ha.
  - assert (Hb : so3_is_framed b = true).
    { apply so3_framed_iff. rewrite <- E. intro X. apply so3_framed_iff in Ha. apply Ha, Fa, X. }
    rewrite so3_mul_framed by assumption. rewrite (proj2 (frame_eqb_eq _ _) E). reflexivity.
  - rewrite so3_mul_unframed by (rewrite Ha; reflexivity). apply so3_unframed_iff in Ha.
    assert (X : so3_from b = null_frame) by (apply Fb; rewrite <- E; apply Fa; exact Ha).
    rewrite Ha, X. reflexivity.
Qed.
Lemma se3_mul_match a b : se3_framing a -> se3_framing b -> se3_from a = se3_into b ->
  se3_mul a b = Ok (se3_times a b (se3_into a) (se3_from b)).
Proof.
  intros Fa Fb E. destruct (se3_is_framed a) eqn:Ha.
  - assert (Hb : se3_is_framed b = true).
    { apply se3_framed_iff. rewrite <- E. intro X. apply se3_framed_iff in Ha. apply Ha, Fa, X. }
    rewrite se3_mul_framed by assumption. rewrite (proj2 (frame_eqb_eq _ _) E). reflexivity.
  - rewrite se3_mul_unframed by (try assumption; rewrite Ha; reflexivity). apply se3_unframed_iff in Ha.
    assert (X : se3_from b = null_frame) by (apply Fb; rewrite <- E; apply Fa; exact Ha).
    rewrite Ha, X. reflexivity.
Qed.
Lemma frames_ok_self i : frames_ok i i.
Proof. unfold frames_ok. tauto. Qed.

(** ** Group laws *)
Lemma so3_neutral g : so3_wf g ->
  so3_mul (so3_id (so3_into g) (so3_into g)) g = Ok g /\
  so3_mul g (so3_id (so3_from g) (so3_from g)) = Ok g.
Proof.
  intros [_ F]. rewrite !so3_mul_match; try assumption; try apply frames_ok_self; try reflexivity.
  cbn [so3_id rotation_matrix so3_into so3_from]. rewrite mmul_1_l, mmul_1_r.
  destruct g. split; reflexivity.
Qed.
Lemma so3_inverse_laws g : so3_wf g -> exists h, so3_inverse g = Ok h /\ so3_wf h /\
  so3_mul g h = Ok (so3_id (so3_into g) (so3_into g)) /\
  so3_mul h g = Ok (so3_id (so3_from g) (so3_from g)) /\
  so3_inverse h = Ok g.
Proof.
  intros [H F]. rewrite so3_inverse_eq by exact F. eexists. split; [reflexivity|].
  assert (F' : so3_framing (SO3 (mtrans (rotation_matrix g)) (so3_from g) (so3_into g)))
    by apply frames_ok_sym, F.
  split; [split; [apply rot_mtrans, H|exact F']|].
  rewrite !so3_mul_match by (try assumption; reflexivity).
  cbn [rotation_matrix so3_into so3_from]. rewrite rot_mtrans_l, rot_mtrans_r by exact H.
  split; [reflexivity|split; [reflexivity|]]. rewrite so3_inverse_eq by exact F'.
  cbn [rotation_matrix so3_into so3_from]. rewrite mtrans_mtrans. destruct g. reflexivity.
Qed.
Lemma so3_mul_closed a b r : so3_wf a -> so3_wf b -> so3_mul a b = Ok r ->
  so3_wf r /\ forall v, so3_act r v = so3_act a (so3_act b v).
Proof.
  intros [Ra Fa] [Rb Fb] E.
  assert (M : rotation_matrix r = mmul (rotation_matrix a) (rotation_matrix b)).
  { unfold so3_mul in E. destruct (_ || _).
    - injection E as <-. reflexivity.
    - apply obind_ok in E as (? & _ & E). unfold so3_of_matrix in E.
      apply obind_ok in E as ((i, f) & _ & E). injection E as <-. reflexivity. }
  split.
  - split; [rewrite M; apply rot_mmul; assumption|]. eapply so3_mul_framing, E.
  - intro v. unfold so3_act. rewrite M. apply mvec_mmul.
Qed.

Lemma se3_neutral g : se3_wf g ->
  se3_mul (se3_id (se3_into g) (se3_into g)) g = Ok g /\
  se3_mul g (se3_id (se3_from g) (se3_from g)) = Ok g.
Proof.
  intros [_ F]. assert (I : forall i, se3_framing (se3_id i i)).
  { intro i. split; [apply frames_ok_self|split; reflexivity]. }
  rewrite !se3_mul_match; try assumption; try apply I; try reflexivity.
  pose proof (se3_rotation_unframed g F) as U.
  unfold se3_times, se3_mat. cbn [se3_id rotation rotation_matrix unframed translation se3_into se3_from].
  rewrite mmul_1_l, mmul_1_r, mvec_1, mvec_zero, vadd_0_r, vadd_0_l.
  change (SO3 (rotation_matrix (rotation g)) null_frame null_frame) with (unframed (rotation_matrix (rotation g))).
  rewrite <- U. destruct g. split; reflexivity.
Qed.
Lemma mvec_inv_l m v : is_rotation m -> mvec (mtrans m) (mvec m v) = v.
Proof. intro H. rewrite <- mvec_mmul, rot_mtrans_l by exact H. apply mvec_1. Qed.
Lemma mvec_inv_r m v : is_rotation m -> mvec m (mvec (mtrans m) v) = v.
Proof. intro H. rewrite <- mvec_mmul, rot_mtrans_r by exact H. apply mvec_1. Qed.
Lemma se3_inv_framing g : se3_framing g -> se3_framing (se3_inv g).
Proof. intro F. split; [apply frames_ok_sym, F|split; reflexivity]. Qed.
Lemma vneg_vneg v : vneg (vneg v) = v. Proof. vring. Qed.
Lemma vadd_neg_l v : vadd (vneg v) v = vzero. Proof. vring. Qed.
Lemma se3_inverse_laws g : se3_wf g -> exists h, se3_inverse g = Ok h /\ se3_wf h /\
  se3_mul g h = Ok (se3_id (se3_into g) (se3_into g)) /\
  se3_mul h g = Ok (se3_id (se3_from g) (se3_from g)) /\
  se3_inverse h = Ok g.
Proof.
  intros [H F]. rewrite se3_inverse_eq by exact F. exists (se3_inv g). split; [reflexivity|].
  pose proof (se3_inv_framing g F) as F'. fold (se3_mat g) in H.
  split; [split; [apply rot_mtrans, H|exact F']|].
  rewrite !se3_mul_match by (try assumption; reflexivity).
  unfold se3_times. change (se3_mat (se3_inv g)) with (mtrans (se3_mat g)).
  change (translation (se3_inv g)) with (mvec (mtrans (se3_mat g)) (vneg (translation g))).
  rewrite rot_mtrans_l, rot_mtrans_r, mvec_inv_r, vadd_neg_l by exact H.
  rewrite <- mvec_add, vadd_comm, vadd_neg_l, mvec_zero.
  split; [reflexivity|split; [reflexivity|]].
  change (se3_inverse (se3_inv g) = Ok g).
  rewrite se3_inverse_eq by exact F'. f_equal.
  pose proof (se3_rotation_unframed g F) as U.
  unfold se3_inv, se3_mat. cbn [rotation rotation_matrix unframed translation se3_into se3_from].
  rewrite mtrans_mtrans, mvec_neg. fold (se3_mat g).
  rewrite mvec_inv_r by exact H. rewrite vneg_vneg.
  unfold se3_mat. change (SO3 (rotation_matrix (rotation g)) null_frame null_frame)
    with (unframed (rotation_matrix (rotation g))). rewrite <- U. destruct g. reflexivity.
Qed.
Lemma se3_mul_shape a b r : se3_framing a -> se3_framing b -> se3_mul a b = Ok r ->
  r = se3_times a b (se3_into r) (se3_from r).
Proof.
  intros Fa Fb E. destruct (se3_is_framed a && se3_is_framed b) eqn:Q.
  - apply andb_true_iff in Q as [Ha Hb]. rewrite se3_mul_framed in E by assumption.
    destruct (frame_eqb _ _); [|discriminate]. injection E as <-. reflexivity.
  - rewrite se3_mul_unframed in E by assumption. injection E as <-. reflexivity.
Qed.
Lemma se3_mul_closed a b r : se3_wf a -> se3_wf b -> se3_mul a b = Ok r ->
  se3_wf r /\ forall p, se3_act r p = se3_act a (se3_act b p).
Proof.
  intros [Ra Fa] [Rb Fb] E. pose proof (se3_mul_framing _ _ _ E) as F.
  pose proof (se3_mul_shape _ _ _ Fa Fb E) as S. split.
  - split; [|exact F]. rewrite S. apply rot_mmul; assumption.
  - intro p. rewrite S. apply se3_times_act.
Qed.
Lemma se3_isometry g p q : se3_wf g ->
  distance (se3_act g p) (se3_act g q) = distance p q /\
  vsub (se3_act g p) (se3_act g q) = se3_rotate g (vsub p q) /\
  se3_act g vzero = translation g.
Proof.
  intros [H F]. unfold distance, se3_act, se3_rotate, so3_act.
  assert (E : vsub (vadd (mvec (rotation_matrix (rotation g)) p) (translation g))
                   (vadd (mvec (rotation_matrix (rotation g)) q) (translation g))
              = mvec (rotation_matrix (rotation g)) (vsub p q)) by vring.
  rewrite E, rot_norm by exact H. split; [reflexivity|split; [reflexivity|]].
  rewrite mvec_zero, vadd_0_l. reflexivity.
Qed.
Lemma se3_id_act i f p : se3_act (se3_id i f) p = p.
Proof. unfold se3_act, so3_act. cbn. rewrite mvec_1, vadd_0_r. reflexivity. Qed.

(** ** Constructions *)
Lemma so3_wf_intro m i f : is_rotation m -> frames_ok i f -> so3_wf (SO3 m i f).
Proof. split; assumption. Qed.
Lemma so3_angle_axis_spec angle axis a g : unit_vec axis -> so3_of_angle_axis angle axis a = Ok g ->
  so3_wf g /\ forall v, so3_act g v = turned angle axis v.
Proof.
  intros U E. pose proof (so3_of_angle_axis_framing _ _ _ _ E) as F.
  unfold so3_of_angle_axis in E. apply obind_ok in E as ((i, f) & _ & E). injection E as <-.
  split; [split; [apply angle_axis_rot, U|exact F]|]. intro v. apply angle_axis_turned, U.
Qed.
Lemma so3_quat_spec q a g : quat_unit q -> so3_of_quat q a = Ok g -> so3_wf g.
Proof.
  intros U E. pose proof (so3_of_quat_framing _ _ _ E) as F.
  unfold so3_of_quat in E. apply obind_ok in E as ((i, f) & _ & E). injection E as <-.
  split; [apply quat_matrix_rot, U|exact F].
Qed.
Lemma so3_quat_round_trip g : so3_wf g ->
  quat_unit (so3_quaternion g) /\
  so3_of_quat (so3_quaternion g) (Some (so3_into g, so3_from g)) = Ok g.
Proof.
  intros [H F]. destruct (matrix_quat_spec _ H) as [U M]. split; [exact U|].
  unfold so3_of_quat. rewrite make_frames_ok by exact F. cbn [obind]. unfold so3_quaternion.
  rewrite M. destruct g. reflexivity.
Qed.
Lemma so3_exp_spec v a g : so3_exp v a = Ok g -> so3_wf g /\ rotation_matrix g = mexp v.
Proof.
  intro E. pose proof (so3_exp_framing _ _ _ E) as F. unfold so3_exp, so3_of_angle_axis in E.
  apply obind_ok in E as ((i, f) & _ & E). injection E as <-.
  split; [split; [apply mexp_rot|exact F]|reflexivity].
Qed.

(** ** exp and log of SO3 *)
Lemma so3_exp_log g : so3_wf g -> so3_exp (so3_log g) (Some (so3_into g, so3_from g)) = Ok g.
Proof.
  intros [H F]. rewrite so3_exp_eq by exact F. unfold so3_log. rewrite mexp_mlog by exact H.
  destruct g. reflexivity.
Qed.
Lemma so3_log_exp v a g : norm v < PI -> so3_exp v a = Ok g -> so3_log g = v.
Proof.
  intros L E. unfold so3_log. rewrite (proj2 (so3_exp_spec _ _ _ E)). apply mlog_mexp, L.
Qed.
Lemma so3_log_bound g : so3_wf g -> norm (so3_log g) <= PI.
Proof. intros [H _]. apply mlog_norm, H. Qed.
(** The logarithm is the shortest of all vectors with this exponential. *)
Lemma exp_norm_cos v w : mexp v = mexp w -> cos (norm v) = cos (norm w).
Proof.
  intro E. assert (T : forall v, m00 (mexp v) + m11 (mexp v) + m22 (mexp v) = 1 + 2 * cos (norm v)).
  { clear. intro v. destruct (vec3_polar v) as (u & U & Ev). set (n := norm v) in *. clearbody n. subst v.
    rewrite mexp_unit by exact U. unfold unit_vec, norm2 in U. destruct u. unfold angle_axis_matrix. vsimpl.
    set (c := cos n). replace (1 + 2 * c) with ((1 - c) * 1 + 3 * c) by ring. rewrite <- U. ring. }
  pose proof (T v) as Tv. pose proof (T w) as Tw. rewrite E in Tv. lra.
Qed.
Lemma log_shortest g v : so3_wf g -> mexp v = rotation_matrix g -> norm (so3_log g) <= norm v.
Proof.
  intros [H F] E. pose proof (mlog_norm _ H) as B. unfold so3_log.
  destruct (Rle_dec (norm (matrix_log (rotation_matrix g))) (norm v)) as [L|L]; [exact L|].
  exfalso. apply L. apply Req_le. symmetry. assert (NV : norm v < PI) by lra.
  rewrite <- E, mlog_mexp by exact NV. reflexivity.
Qed.

(** ** exp and log of SE3 *)
Lemma se3_exp_eq alg i f : frames_ok i f ->
  se3_exp alg (Some (i, f)) = Ok (SE3 (unframed (mexp (trot alg))) (Vmap (trot alg) (ttrans alg)) i f).
Proof.
  intro H. unfold se3_exp. cbn [so3_exp so3_of_angle_axis make_frames obind].
  rewrite se3_make_some by exact H. reflexivity.
Qed.
Lemma se3_exp_none alg :
  se3_exp alg None = Ok (SE3 (unframed (mexp (trot alg))) (Vmap (trot alg) (ttrans alg)) null_frame null_frame).
Proof. reflexivity. Qed.
Lemma se3_exp_spec alg a g : se3_exp alg a = Ok g ->
  se3_wf g /\ rotation_matrix (rotation g) = mexp (trot alg) /\
  translation g = Vmap (trot alg) (ttrans alg) /\ make_frames a = Ok (se3_into g, se3_from g).
Proof.
  intro E. pose proof (se3_exp_framing _ _ _ E) as F. unfold se3_exp in E.
  apply obind_ok in E as (r & Er & E). apply so3_exp_spec in Er as [_ Er].
  unfold se3_make in E. apply obind_ok in E as ((i, f) & Em & E). injection E as <-.
  cbn [rotation so3_set_unframed rotation_matrix translation se3_into se3_from].
  split; [split; [cbn; rewrite Er; apply mexp_rot|exact F]|].
  split; [exact Er|]. split; [reflexivity|exact Em].
Qed.
Lemma se3_log_eq g : se3_log g =
  T6 (so3_log (rotation g)) (Vinv (so3_log (rotation g)) (translation g)).
Proof. reflexivity. Qed.

Lemma log_sq_bound g : se3_wf g -> 0 <= norm2 (so3_log (rotation g)) <= PI * PI.
Proof.
  intros [H _]. split; [apply norm2_nonneg|]. rewrite <- norm_sqr.
  pose proof (mlog_norm _ H). pose proof (norm_nonneg (so3_log (rotation g))).
  unfold so3_log in *. nra.
Qed.
Lemma V_Vinv_regular w t : regular (norm2 w) -> norm2 w <= PI * PI -> Vmap w (Vinv w t) = t.
Proof.
  intros Rg B. rewrite V_Vinv. destruct (errs_regular _ Rg (conj (norm2_nonneg w) B)) as [-> ->].
  rewrite !vscale_0, !vadd_0_r. reflexivity.
Qed.
Lemma regular_dec s : {regular s} + {s < TINY_SQUARE_ANGLE}.
Proof.
  destruct (Rlt_dec s TINY_SQUARE_ANGLE) as [L|L]; [right; exact L|left; right; lra].
Qed.
Lemma V_Vinv_any w t : norm2 w <= PI * PI -> norm (vsub (Vmap w (Vinv w t)) t) <= / 10^15 * norm t.
Proof.
  intro B. destruct (regular_dec (norm2 w)) as [Rg|L].
  - rewrite V_Vinv_regular, norm_vsub_self by assumption.
    apply Rmult_le_pos; [|apply norm_nonneg]. lra.
  - apply V_Vinv_tiny, L.
Qed.

Lemma se3_exp_log g : se3_wf g ->
  exists h, se3_exp (se3_log g) (Some (se3_into g, se3_from g)) = Ok h /\
    rotation h = rotation g /\ se3_into h = se3_into g /\ se3_from h = se3_from g /\
    norm (vsub (translation h) (translation g)) <= / 10^15 * norm (translation g) /\
    (plain_angle (norm2 (trot (se3_log g))) -> h = g).
Proof.
  intros W. pose proof W as [H F]. rewrite se3_exp_eq by exact (proj1 F).
  eexists. split; [reflexivity|]. cbn [rotation translation se3_into se3_from].
  rewrite se3_log_eq. cbn [trot ttrans].
  assert (RE : unframed (mexp (so3_log (rotation g))) = rotation g).
  { unfold so3_log. rewrite mexp_mlog by exact H. symmetry. apply se3_rotation_unframed, F. }
  split; [exact RE|]. split; [reflexivity|]. split; [reflexivity|].
  pose proof (log_sq_bound g W) as [_ B].
  split; [apply V_Vinv_any, B|].
  intro P. rewrite RE, V_Vinv_regular by (try exact P; exact B). destruct g. reflexivity.
Qed.

Lemma se3_log_exp alg a g : norm (trot alg) < PI -> se3_exp alg a = Ok g ->
  trot (se3_log g) = trot alg /\
  norm (vsub (ttrans (se3_log g)) (ttrans alg)) <= / 10^15 * norm (ttrans alg) /\
  (plain_angle (norm2 (trot alg)) -> se3_log g = alg).
Proof.
  intros L E. destruct (se3_exp_spec _ _ _ E) as (W & M & T & _).
  assert (LG : so3_log (rotation g) = trot alg).
  { unfold so3_log. rewrite M. apply mlog_mexp, L. }
  assert (B : norm2 (trot alg) <= PI * PI).
  { rewrite <- norm_sqr. pose proof (norm_nonneg (trot alg)). nra. }
  rewrite se3_log_eq, LG, T. cbn [trot ttrans]. rewrite Vinv_V.
  split; [reflexivity|]. split; [apply V_Vinv_any, B|].
  intro P. rewrite V_Vinv_regular by (try exact P; exact B). destruct alg. reflexivity.
Qed.
Lemma se3_log_rotation_bound g : se3_wf g -> norm (trot (se3_log g)) <= PI.
Proof. intros [H _]. apply mlog_norm, H. Qed.

(** The typing slip in the tiny branch costs exactness. *)
Lemma err2_witness : err2 (/ 1000000) <> 0.
Proof.
  unfold err2, log_order_2_coeff, derivative_of_exp_so3.
  destruct (Rlt_dec (/ 1000000) TINY_SQUARE_ANGLE) as [_|N]; [|rewrite tiny_val in N; lra].
  cbn [ca cb cc]. unfold tiny_coeff. lra.
Qed.
Lemma se3_exp_log_witness : exists g h, se3_wf g /\ se3_into g = null_frame /\ se3_from g = null_frame /\
  se3_exp (se3_log g) (Some (se3_into g, se3_from g)) = Ok h /\ h <> g.
Proof.
  set (w := V3 (/ 1000) 0 0). set (g := SE3 (unframed (mexp w)) (V3 0 1 0) null_frame null_frame).
  assert (W : se3_wf g).
  { split; [apply mexp_rot|]. split; [apply frames_ok_null|split; reflexivity]. }
  exists g. eexists. split; [exact W|]. split; [reflexivity|]. split; [reflexivity|]. split.
  - apply se3_exp_eq, frames_ok_null.
  - intro E. apply (f_equal translation) in E. cbn [translation g] in E.
    rewrite se3_log_eq in E. cbn [trot ttrans rotation translation g] in E.
    assert (NW : norm2 w = / 1000000) by (unfold w, norm2; vsimpl; lra).
    assert (L : so3_log (unframed (mexp w)) = w).
    { unfold so3_log. cbn [rotation_matrix unframed]. apply mlog_mexp.
      apply Rle_lt_trans with 1; [|pose proof three_lt_PI; lra].
      apply norm_le_sqr; [lra|]. rewrite NW. lra. }
    rewrite L, V_Vinv, NW in E. apply (f_equal vy) in E. unfold w in E. vsimpl.
    apply err2_witness. nra.
Qed.
Lemma se3_exp_log_refuted : exists g h, se3_wf g /\
  se3_exp (se3_log g) (Some (se3_into g, se3_from g)) = Ok h /\ h <> g.
Proof. destruct se3_exp_log_witness as (g & h & W & _ & _ & E). exists g, h. split; [exact W|exact E]. Qed.

(** ** Adjoint *)
Lemma so3_adjoint_exp g v : so3_wf g ->
  (let* e := so3_exp v (Some (so3_from g, so3_from g)) in
   let* ge := so3_mul g e in
   let* gi := so3_inverse g in
   so3_mul ge gi) =
  so3_exp (so3_adjoint_times g v) (Some (so3_into g, so3_into g)).
Proof.
  intros [H F]. rewrite so3_exp_eq by apply frames_ok_self. cbn [obind].
  rewrite so3_mul_match by (try exact F; try apply frames_ok_self; reflexivity).
  cbn [obind rotation_matrix so3_from]. rewrite so3_inverse_eq by exact F. cbn [obind].
  rewrite so3_mul_match; [|exact F|apply frames_ok_sym, F|reflexivity].
  cbn [rotation_matrix so3_into so3_from]. rewrite so3_exp_eq by apply frames_ok_self.
  rewrite mexp_conj by exact H. reflexivity.
Qed.

(** How far W V is from E - I when the angle is tiny. *)
Lemma tiny_norm w : norm2 w < TINY_SQUARE_ANGLE -> norm w <= 1 / 500.
Proof.
  intro L. rewrite tiny_val, <- norm_sqr in L. pose proof (norm_nonneg w). nra.
Qed.
Lemma pow_tiny t k : 0 <= t <= 1 / 500 -> 0 <= t ^ k <= (1 / 500) ^ k.
Proof. intros [P Q]. split; [apply pow_le, P|apply pow_incr; split; assumption]. Qed.
Lemma norm_comb2 x y u v m : norm u <= m -> norm v <= m ->
  norm (vadd (vscale x u) (vscale y v)) <= (Rabs x + Rabs y) * m.
Proof.
  intros U V. eapply Rle_trans; [apply norm_triangle|]. rewrite !norm_scale.
  pose proof (Rabs_pos x). pose proof (Rabs_pos y).
  assert (Rabs x * norm u <= Rabs x * m) by (apply Rmult_le_compat_l; assumption).
  assert (Rabs y * norm v <= Rabs y * m) by (apply Rmult_le_compat_l; assumption). lra.
Qed.
Lemma mexp_Vmap_err w x :
  norm (vsub (mvec (mexp w) x) (vadd x (Vmap w (cross w x)))) <= / 10^26 * norm x.
Proof.
  destruct (regular_dec (norm2 w)) as [Rg|L].
  - rewrite mexp_Vmap, norm_vsub_self by exact Rg.
    apply Rmult_le_pos; [lra|apply norm_nonneg].
  - destruct (vec3_zero_dec w) as [Z|NZ].
    + subst w. rewrite mexp_zero, mvec_1, Vmap_zero.
      replace (vsub x (vadd x (cross vzero x))) with vzero by vring. rewrite norm_vzero.
      apply Rmult_le_pos; [lra|apply norm_nonneg].
    + pose proof (norm_pos w NZ) as P. pose proof (tiny_norm w L) as T.
      rewrite (mexp_split w x (sin (norm w) / norm w) ((1 - cos (norm w)) / (norm w * norm w)))
        by (field; lra).
      unfold Vmap. rewrite <- norm_sqr in L |- *.
      destruct (coeff_tiny (norm w) (Rlt_le _ _ P) L) as (A & B & _). cbv zeta in A, B.
      set (a := ca _) in *. set (b := cb _) in *. set (c := cc _) in *. set (n := norm w) in *.
      assert (D : dot w (cross w x) = 0) by (clear; vring). rewrite D.
      replace (vsub _ _) with
        (vadd (vscale (sin n - n * a) (vscale (/ n) (cross w x)))
              (vscale ((1 - cos n) - n * n * b) (vscale (/ (n * n)) (cross w (cross w x))))).
      2:{ clearbody a b c. generalize (sin n) (cos n). intros s k. generalize (cross w (cross w x)) (cross w x). 
          intros [y0 y1 y2] [z0 z1 z2]. destruct w, x. vsimpl. f_equal; field; lra. }
      pose proof (norm_cross_le w x) as C1. pose proof (norm_cross_le w (cross w x)) as C2. fold n in C1, C2.
      eapply Rle_trans; [apply (norm_comb2 _ _ _ _ (norm x))|].
      * rewrite norm_scale, Rabs_right by (apply Rle_ge, Rlt_le, Rinv_0_lt_compat, P).
        apply Rmult_le_reg_l with n; [exact P|]. rewrite <- Rmult_assoc, Rinv_r, Rmult_1_l by lra. exact C1.
      * assert (PP : 0 < n * n) by nra.
        rewrite norm_scale, Rabs_right by (apply Rle_ge, Rlt_le, Rinv_0_lt_compat, PP).
        apply Rmult_le_reg_l with (n * n); [exact PP|]. rewrite <- Rmult_assoc, Rinv_r, Rmult_1_l by lra.
        eapply Rle_trans; [exact C2|]. rewrite Rmult_assoc. apply Rmult_le_compat_l; lra.
      * apply Rmult_le_compat_r; [apply norm_nonneg|].
        pose proof (pow_tiny n 9 ltac:(lra)). pose proof (pow_tiny n 8 ltac:(lra)).
        assert (Rabs (sin n - n * a) <= (1/500)^9 / 362880) by (apply Rabs_le; lra).
        assert (Rabs (1 - cos n - n * n * b) <= (1/500)^8 / 40320) by (apply Rabs_le; lra).
        lra.
Qed.

Lemma se3_adjoint_exp g alg : se3_wf g -> exists h h',
  (let* e := se3_exp alg (Some (se3_from g, se3_from g)) in
   let* ge := se3_mul g e in
   let* gi := se3_inverse g in
   se3_mul ge gi) = Ok h /\
  se3_exp (se3_adjoint_times g alg) (Some (se3_into g, se3_into g)) = Ok h' /\
  rotation h = rotation h' /\ se3_into h = se3_into h' /\ se3_from h = se3_from h' /\
  norm (vsub (translation h) (translation h')) <= / 10^26 * norm (translation g) /\
  (plain_angle (norm2 (trot alg)) -> h = h').
Proof.
  intros [H F]. fold (se3_mat g) in H. rewrite se3_exp_eq by apply frames_ok_self. cbn [obind].
  set (e := SE3 _ _ _ _). assert (Fe : se3_framing e) by (split; [apply frames_ok_self|split; reflexivity]).
  rewrite se3_mul_match by (try assumption; reflexivity). cbn [obind].
  rewrite se3_inverse_eq by exact F. cbn [obind].
  set (ge := se3_times g e _ _).
  rewrite se3_mul_match; [|apply se3_times_framing, F|apply se3_inv_framing, F|reflexivity].
  change (se3_into ge) with (se3_into g). change (se3_from (se3_inv g)) with (se3_into g).
  rewrite se3_exp_eq by apply frames_ok_self. unfold se3_adjoint_times. cbn [trot ttrans].
  fold (se3_mat g). set (m := se3_mat g) in *. set (w := trot alg). set (v := ttrans alg).
  set (t := translation g).
  assert (Q : mmul (mmul m (mexp w)) (mtrans m) = mexp (mvec m w)) by (apply mexp_conj, H).
  assert (T : se3_times ge (se3_inv g) (se3_into g) (se3_into g) =
    SE3 (unframed (mexp (mvec m w)))
        (vadd (vneg (mvec (mexp (mvec m w)) t)) (vadd (Vmap (mvec m w) (mvec m v)) t))
        (se3_into g) (se3_into g)).
  { unfold se3_times. change (se3_mat ge) with (mmul m (mexp w)).
    change (se3_mat (se3_inv g)) with (mtrans m).
    change (translation (se3_inv g)) with (mvec (mtrans m) (vneg t)).
    change (translation ge) with (vadd (mvec m (Vmap w v)) t).
    rewrite <- mvec_mmul, Q, mvec_neg, Vmap_rot by exact H. reflexivity. }
  rewrite T.
  assert (T' : Vmap (mvec m w) (vadd (cross t (mvec m w)) (mvec m v))
    = vadd (vneg (Vmap (mvec m w) (cross (mvec m w) t))) (Vmap (mvec m w) (mvec m v))).
  { rewrite Vmap_add. f_equal. rewrite cross_anti.
    replace (vneg (cross (mvec m w) t)) with (vscale (-1) (cross (mvec m w) t)) by vring.
    rewrite Vmap_scale. vring. }
  rewrite T'. eexists. eexists. split; [reflexivity|]. split; [reflexivity|].
  cbn [rotation translation se3_into se3_from].
  split; [reflexivity|]. split; [reflexivity|]. split; [reflexivity|]. split.
  - pose proof (mexp_Vmap_err (mvec m w) t) as B.
    assert (X : forall p q r, vsub (vadd (vneg p) (vadd q t)) (vadd (vneg r) q) = vneg (vsub p (vadd t r))) by (intros; vring).
    rewrite X, norm_neg. exact B.
  - intro P. assert (Rg : regular (norm2 (mvec m w))) by (rewrite rot_norm2 by exact H; exact P).
    rewrite (mexp_Vmap _ _ Rg). generalize (Vmap (mvec m w) (cross (mvec m w) t)) (Vmap (mvec m w) (mvec m v)).
    intros x y. replace (vadd (vneg (vadd t x)) (vadd y t)) with (vadd (vneg x) y) by vring. reflexivity.
Qed.

(** Adjoint matrices, products and brackets. *)
Lemma so3_adjoint_matrix g v : mvec (so3_adjoint g) v = so3_adjoint_times g v.
Proof. reflexivity. Qed.
Lemma so3_bracket a b :
  cross_matrix (so3_adjoint_times_alg a b) =
  madd (mmul (cross_matrix a) (cross_matrix b)) (mscale (-1) (mmul (cross_matrix b) (cross_matrix a))).
Proof. unfold cross_matrix, so3_adjoint_times_alg. vring. Qed.
Lemma se3_adjoint_matrix g alg : mat6_times (se3_adjoint g) alg = se3_adjoint_times g alg.
Proof.
  unfold mat6_times, se3_adjoint, se3_adjoint_times, mzero, so3_adjoint, cross_matrix.
  destruct g as [[m ? ?] t ? ?], alg as [ar at_]. cbn [b00 b01 b10 b11 rotation rotation_matrix translation trot ttrans].
  f_equal; vring.
Qed.
Lemma se3_adjoint_alg_matrix a b : mat6_times (se3_adjoint_alg a) b = se3_adjoint_times_alg a b.
Proof.
  unfold mat6_times, se3_adjoint_alg, se3_adjoint_times_alg, mzero, so3_adjoint_alg, cross_matrix.
  destruct a as [a1 a2], b as [c1 c2]. cbn [b00 b01 b10 b11 trot ttrans]. f_equal; vring.
Qed.
Lemma se3_adjoint_mul a b r alg : se3_wf a -> se3_wf b -> se3_mul a b = Ok r ->
  se3_adjoint_times r alg = se3_adjoint_times a (se3_adjoint_times b alg).
Proof.
  intros [Ra Fa] [Rb Fb] E. pose proof (se3_mul_shape _ _ _ Fa Fb E) as S. rewrite S.
  unfold se3_adjoint_times, se3_times. cbn [rotation rotation_matrix unframed translation].
  fold (se3_mat a) (se3_mat b). fold (se3_mat a) in Ra. cbn [trot ttrans].
  rewrite !mvec_mmul. f_equal. rewrite mvec_add, <- (rot_cross (se3_mat a)) by exact Ra.
  generalize (mvec (se3_mat a) (mvec (se3_mat b) (trot alg))) (mvec (se3_mat a) (mvec (se3_mat b) (ttrans alg)))
    (mvec (se3_mat a) (translation b)). intros. vring.
Qed.
Lemma so3_adjoint_mul a b r alg : so3_wf a -> so3_wf b -> so3_mul a b = Ok r ->
  so3_adjoint_times r alg = so3_adjoint_times a (so3_adjoint_times b alg).
Proof. intros A B E. apply (proj2 (so3_mul_closed _ _ _ A B E)). Qed.
Lemma se3_adjoint_bracket g a b : se3_wf g ->
  se3_adjoint_times g (se3_adjoint_times_alg a b) =
  se3_adjoint_times_alg (se3_adjoint_times g a) (se3_adjoint_times g b).
Proof.
  intros [H _]. unfold se3_adjoint_times, se3_adjoint_times_alg. cbn [trot ttrans].
  rewrite <- !(rot_cross (rotation_matrix (rotation g))) by exact H.
  rewrite mvec_add. rewrite <- !(rot_cross (rotation_matrix (rotation g))) by exact H.
  generalize (mvec (rotation_matrix (rotation g)) (trot a)) (mvec (rotation_matrix (rotation g)) (trot b))
    (mvec (rotation_matrix (rotation g)) (ttrans a)) (mvec (rotation_matrix (rotation g)) (ttrans b))
    (translation g). intros. f_equal. vring.
Qed.
Lemma so3_adjoint_bracket g a b : so3_wf g ->
  so3_adjoint_times g (so3_adjoint_times_alg a b) =
  so3_adjoint_times_alg (so3_adjoint_times g a) (so3_adjoint_times g b).
Proof. intros [H _]. symmetry. apply rot_cross, H. Qed.
Lemma se3_bracket a b :
  hat6 (se3_adjoint_times_alg a b) = hat_sub (hat_mul (hat6 a) (hat6 b)) (hat_mul (hat6 b) (hat6 a)).
Proof.
  unfold hat6, hat_sub, hat_mul, se3_adjoint_times_alg, cross_matrix. cbn [fst snd trot ttrans].
  destruct a as [a1 a2], b as [c1 c2]. cbn [trot ttrans]. f_equal; vring.
Qed.
Lemma bracket_laws a b c (x y z : vec3) :
  so3_adjoint_times_alg x y = vneg (so3_adjoint_times_alg y x) /\
  vadd (so3_adjoint_times_alg x (so3_adjoint_times_alg y z))
    (vadd (so3_adjoint_times_alg y (so3_adjoint_times_alg z x)) (so3_adjoint_times_alg z (so3_adjoint_times_alg x y))) = vzero /\
  se3_adjoint_times_alg a b = tscale (-1) (se3_adjoint_times_alg b a) /\
  tadd (se3_adjoint_times_alg a (se3_adjoint_times_alg b c))
    (tadd (se3_adjoint_times_alg b (se3_adjoint_times_alg c a)) (se3_adjoint_times_alg c (se3_adjoint_times_alg a b))) = tzero.
Proof.
  unfold so3_adjoint_times_alg. split; [apply cross_anti|]. split; [vring|].
  destruct a as [a1 a2], b as [c1 c2], c as [d1 d2]. unfold se3_adjoint_times_alg, tscale, tadd, tzero. cbn [trot ttrans].
  split; f_equal; vring.
Qed.
Lemma cross_matrix_laws a b c k m :
  mvec (cross_matrix a) b = cross a b /\ mtrans (cross_matrix a) = mscale (-1) (cross_matrix a) /\
  cross_matrix (vadd a c) = madd (cross_matrix a) (cross_matrix c) /\
  cross_matrix (vscale k a) = mscale k (cross_matrix a) /\
  (is_rotation m -> mmul (mmul m (cross_matrix a)) (mtrans m) = cross_matrix (mvec m a)).
Proof.
  split; [apply cross_matrix_mvec|].
  split; [unfold cross_matrix; vring|]. split; [unfold cross_matrix; vring|]. split; [unfold cross_matrix; vring|].
  intro H. apply rot_conj_cross, H.
Qed.

(** ** Interpolation *)
Lemma so3_interp_eq g s : so3_wf g ->
  so3_interp g s = Ok (SO3 (mexp (vscale s (so3_log g))) (so3_into g) (so3_from g)).
Proof. intros [_ F]. apply so3_exp_eq, F. Qed.
Lemma so3_interp_ends g : so3_wf g ->
  so3_interp g 0 = Ok (so3_id (so3_into g) (so3_from g)) /\ so3_interp g 1 = Ok g.
Proof.
  intro W. rewrite !so3_interp_eq by exact W. rewrite vscale_0, vscale_1, mexp_zero.
  split; [reflexivity|]. destruct W as [H _]. unfold so3_log. rewrite mexp_mlog by exact H.
  destruct g. reflexivity.
Qed.
Lemma so3_interp_subgroup g s t a b c : so3_wf g ->
  so3_interp g s = Ok a -> so3_interp g t = Ok b -> so3_interp g (s + t) = Ok c ->
  forall v, so3_act c v = so3_act a (so3_act b v).
Proof.
  intros W. rewrite !so3_interp_eq by exact W. intros A B C. injection A as <-. injection B as <-. injection C as <-.
  intro v. unfold so3_act. cbn [rotation_matrix]. rewrite <- mvec_mmul, mexp_add. reflexivity.
Qed.
Lemma so3_exp_throw v i f : ~ frames_ok i f -> so3_exp v (Some (i, f)) = Throw.
Proof. intro H. unfold so3_exp, so3_of_angle_axis. rewrite (proj2 (make_frames_throw i f) H). reflexivity. Qed.
Lemma se3_exp_throw v i f : ~ frames_ok i f -> se3_exp v (Some (i, f)) = Throw.
Proof.
  intro H. unfold se3_exp. cbn [so3_exp so3_of_angle_axis make_frames obind]. unfold se3_make.
  rewrite (proj2 (make_frames_throw i f) H). reflexivity.
Qed.
Lemma so3_interp_from_spec g s f : so3_wf g ->
  (so3_is_framed g = true -> f <> null_frame ->
     so3_interp_from g s f = Ok (SO3 (mexp (vscale s (so3_log g))) (so3_into g) f)) /\
  (so3_is_framed g = false \/ f = null_frame -> so3_interp_from g s f = Throw).
Proof.
  intros [H F]. unfold so3_interp_from. split.
  - intros Fr N. rewrite Fr. cbn [reassert obind]. apply so3_exp_eq.
    apply frames_ok_both; [apply so3_framed_iff, Fr|exact N].
  - intros [E|E].
    + rewrite E. reflexivity.
    + destruct (so3_is_framed g) eqn:Fr; [|reflexivity]. cbn [reassert obind].
      subst f. apply so3_exp_throw. intros [_ X]. apply so3_framed_iff in Fr. apply Fr, X. reflexivity.
Qed.

(** *** The screw motion *)
Lemma screw_zero w v : screw w v 0 = vzero.
Proof.
  unfold screw. destruct (Req_EM_T _ _) as [_|N]; [apply vscale_0|]. rewrite Rmult_0_l, sin_0, cos_0.
  set (n := norm w) in *. clearbody n. destruct w, v. vsimpl. unfold vzero. f_equal; field; assumption.
Qed.
Lemma norm_zero_iff w : norm w = 0 <-> w = vzero.
Proof. split; [apply norm_zero|intros ->; apply norm_vzero]. Qed.
(** The motion of s + t is that of s after that of t. *)
Lemma screw_add w v s t :
  screw w v (s + t) = vadd (mvec (mexp (vscale s w)) (screw w v t)) (screw w v s).
Proof.
  unfold screw. destruct (Req_EM_T (norm w) 0) as [Z|N].
  - apply norm_zero in Z. subst w. rewrite vscale_zero, mexp_zero, mvec_1. vring.
  - destruct (vec3_polar w) as (u & U & E). set (n := norm w) in *. clearbody n. subst w.
    rewrite (vscale_vscale s n u), mexp_unit, angle_axis_split by exact U.
    rewrite Rmult_plus_distr_r, sin_plus, cos_plus.
    generalize (sin2_cos2 (s * n)) (sin2_cos2 (t * n)). unfold Rsqr.
    generalize (sin (s * n)) (cos (s * n)) (sin (t * n)) (cos (t * n)). intros a b c d Q1 Q2.
    unfold unit_vec, norm2 in U. destruct u as [p q r], v as [i j k]. unfold cross_matrix. vsimpl.
    assert (P : p * p = 1 - q * q - r * r) by lra.
    f_equal; field [P]; exact N.
Qed.

(** SE3::exp follows the screw motion, exactly unless the angle is tiny. *)
Lemma sin_abs_scale s n : 0 <= n -> s * n = Rabs s * n \/ s * n = - (Rabs s * n).
Proof. intro P. unfold Rabs. destruct (Rcase_abs s); [right|left]; ring. Qed.
Lemma screw_coeffs s n k : 0 < n -> regular (s * n * (s * n)) ->
  k = derivative_of_exp_so3 (s * n * (s * n)) ->
  s * n * ca k = sin (s * n) /\ s * n * (s * n) * cb k = 1 - cos (s * n) /\
  s * n * (s * n) * (s * n) * cc k = s * n - sin (s * n).
Proof.
  intros P Rg ->. set (x := s * n) in *. clearbody x. destruct (Rle_dec 0 x) as [L|L].
  - apply coeff_regular; assumption.
  - assert (E : x * x = (- x) * (- x)) by ring. rewrite E in *.
    destruct (coeff_regular (- x) ltac:(lra) Rg) as (A & B & C). rewrite sin_neg in A, C. rewrite cos_neg in B.
    set (k := derivative_of_exp_so3 _) in *. split; [lra|]. split; [lra|]. lra.
Qed.
Lemma Vmap_screw w v s : regular (norm2 (vscale s w)) ->
  Vmap (vscale s w) (vscale s v) = screw w v s.
Proof.
  rewrite norm2_scale. unfold screw. destruct (Req_EM_T (norm w) 0) as [Z|N].
  - intros _. apply norm_zero in Z. subst w. rewrite vscale_zero. apply Vmap_zero.
  - pose proof (norm_nonneg w). rewrite <- norm_sqr.
    replace (s * s * (norm w * norm w)) with (s * norm w * (s * norm w)) by ring. intro Rg.
    unfold Vmap. rewrite norm2_scale, <- norm_sqr.
    replace (s * s * (norm w * norm w)) with (s * norm w * (s * norm w)) by ring.
    destruct (screw_coeffs s (norm w) _ ltac:(lra) Rg eq_refl) as (A & B & C).
    set (k := derivative_of_exp_so3 _) in *. rewrite <- C, <- B, <- A. clear A B C Rg.
    clearbody k. set (n := norm w) in *. clearbody n. destruct w, v. vsimpl. f_equal; field; exact N.
Qed.
Lemma Vmap_screw_err w v s :
  norm (vsub (Vmap (vscale s w) (vscale s v)) (screw w v s)) <= / 10^23 * norm (vscale s v).
Proof.
  destruct (regular_dec (norm2 (vscale s w))) as [Rg|L].
  { rewrite Vmap_screw, norm_vsub_self by exact Rg. apply Rmult_le_pos; [lra|apply norm_nonneg]. }
  destruct (vec3_zero_dec (vscale s w)) as [Z|NZ].
  { rewrite Vmap_screw, norm_vsub_self.
    - apply Rmult_le_pos; [lra|apply norm_nonneg].
    - rewrite Z. left. unfold norm2. vsimpl. ring. }
  assert (S : s <> 0) by (intros ->; apply NZ; apply vscale_0).
  assert (N : norm w <> 0) by (intro Z; apply norm_zero in Z; subst w; apply NZ, vscale_zero).
  pose proof (norm_nonneg w) as P. set (x := Rabs s * norm w).
  assert (X : 0 < x) by (apply Rmult_lt_0_compat; [apply Rabs_pos_lt, S|lra]).
  assert (XX : norm2 (vscale s w) = x * x).
  { rewrite norm2_scale, <- norm_sqr. unfold x. transitivity (s * s * (norm w * norm w)); [reflexivity|].
    replace (s * s) with (Rabs s * Rabs s); [ring|]. rewrite <- Rabs_mult. apply Rabs_right. nra. }
  rewrite XX in L. pose proof L as L'. rewrite tiny_val in L'.
  destruct (coeff_tiny x (Rlt_le _ _ X) L) as (A & B & C). cbv zeta in A, B, C.
  unfold Vmap, screw. rewrite XX. destruct (Req_EM_T (norm w) 0) as [Z|_]; [contradiction|].
  set (k := derivative_of_exp_so3 _) in *.
  assert (SG : exists e, e * e = 1 /\ s = e * Rabs s /\ sin (s * norm w) = e * sin x /\ cos (s * norm w) = cos x).
  { unfold x, Rabs. destruct (Rcase_abs s).
    - exists (-1). split; [ring|]. split; [ring|]. replace (- s * norm w) with (- (s * norm w)) by ring.
      rewrite sin_neg, cos_neg. split; ring.
    - exists 1. split; [ring|]. split; [ring|]. split; ring. }
  destruct SG as (e & E2 & ES & -> & ->). set (r := Rabs s) in *.
  assert (RP : 0 < r) by (apply Rabs_pos_lt, S). clearbody r. subst s. clear S NZ.
  set (n := norm w) in *.
  (* the three error terms *)
  replace (vsub _ _) with
    (vadd (vadd (vscale (e / n * (x * ca k - sin x)) v)
                (vscale (/ (n * n) * (x * x * cb k - (1 - cos x))) (cross w v)))
          (vscale (e * dot w v / (n * n * n) * (x * x * x * cc k - (x - sin x))) w)).
  2:{ unfold x. generalize (ca k) (cb k) (cc k) (sin (r * n)) (cos (r * n)). intros a b c sn cs. clear - E2 N.
      clearbody n. destruct w as [w0 w1 w2], v as [v0 v1 v2]. vsimpl.
      assert (E3 : e * e * e = e) by (rewrite E2; ring).
      f_equal; field_simplify_eq; try exact N; 
      repeat match goal with |- context [e ^ 3] => replace (e ^ 3) with e by (rewrite <- E3 at 1; ring) end;
      repeat match goal with |- context [e ^ 2] => replace (e ^ 2) with 1 by (rewrite <- E2; ring) end; ring. }
  set (d1 := x * ca k - sin x) in *. set (d2 := x * x * cb k - (1 - cos x)) in *.
  set (d3 := x * x * x * cc k - (x - sin x)) in *.
  assert (AE : Rabs e = 1).
  { assert (Q : Rabs e * Rabs e = 1) by (rewrite <- Rabs_mult, E2; apply Rabs_R1).
    pose proof (Rabs_pos e). nra. }
  assert (T : x <= 1 / 500) by nra.
  assert (D1 : Rabs d1 <= x ^ 9 / 362880) by (apply Rabs_le; unfold d1; lra).
  assert (D2 : Rabs d2 <= x ^ 8 / 40320) by (apply Rabs_le; lra).
  assert (D3 : Rabs d3 <= x ^ 9 / 362880) by (apply Rabs_le; lra).
  assert (NP : 0 < n) by lra.
  eapply Rle_trans; [apply norm_triangle|]. eapply Rle_trans; [apply Rplus_le_compat_r, norm_triangle|].
  rewrite !norm_scale. fold n. rewrite !Rabs_mult. unfold Rdiv. rewrite !Rabs_mult, AE.
  rewrite !Rabs_inv, !Rabs_mult, !(Rabs_right n) by lra.
  pose proof (norm_cross_le w v) as CR. fold n in CR.
  assert (DT : Rabs (dot w v) <= n * norm v).
  { pose proof (cauchy w v) as C1. pose proof (cauchy (vneg w) v) as C2.
    rewrite norm_neg in C2. replace (dot (vneg w) v) with (- dot w v) in C2 by vring. fold n in C1, C2.
    apply Rabs_le. lra. }
  pose proof (norm_nonneg v) as VP. set (m := norm v) in *. set (y := norm (cross w v)) in *.
  set (z := Rabs (dot w v)) in *.
  assert (ZP : 0 <= z) by apply Rabs_pos. assert (YP : 0 <= y) by apply norm_nonneg.
  pose proof (Rabs_pos d1). pose proof (Rabs_pos d2). pose proof (Rabs_pos d3).
  set (a1 := Rabs d1) in *. set (a2 := Rabs d2) in *. set (a3 := Rabs d3) in *.
  rewrite (Rabs_right r) by lra. rewrite !Rmult_1_l.
  assert (B2 : / (n * n) * a2 * y <= / n * a2 * m).
  { apply Rle_trans with (/ (n * n) * a2 * (n * m)).
    - apply Rmult_le_compat_l; [|exact CR]. apply Rmult_le_pos; [|assumption].
      apply Rlt_le, Rinv_0_lt_compat. nra.
    - right. field. lra. }
  assert (B3 : z * / (n * n * n) * a3 * n <= / n * a3 * m).
  { apply Rle_trans with (n * m * / (n * n * n) * a3 * n).
    - apply Rmult_le_compat_r; [lra|]. apply Rmult_le_compat_r; [assumption|].
      apply Rmult_le_compat_r; [|exact DT]. apply Rlt_le, Rinv_0_lt_compat.
      apply Rmult_lt_0_compat; nra.
    - right. field. lra. }
  apply Rle_trans with (/ n * m * (a1 + a2 + a3)).
  { assert (B1 : / n * a1 * m = / n * m * a1) by ring. 
    replace (/ n * m * (a1 + a2 + a3)) with (/ n * a1 * m + / n * a2 * m + / n * a3 * m) by ring. lra. }
  assert (SUM : a1 + a2 + a3 <= x * / 10^23).
  { pose proof (pow_tiny x 8 ltac:(lra)). pose proof (pow_tiny x 7 ltac:(lra)).
    apply Rle_trans with (x * (2 * x ^ 8 / 362880 + x ^ 7 / 40320)).
    - replace (x ^ 9) with (x * x ^ 8) in * by ring. replace (x ^ 8) with (x * x ^ 7) in D2 by ring. lra.
    - apply Rmult_le_compat_l; lra. }
  apply Rle_trans with (/ n * m * (x * / 10^23)).
  { apply Rmult_le_compat_l; [|exact SUM]. apply Rmult_le_pos; [apply Rlt_le, Rinv_0_lt_compat, NP|exact VP]. }
  right. unfold x. field. lra.
Qed.

(** *** SE3 interpolation *)
Lemma se3_interp_eq g s : se3_wf g ->
  se3_interp g s = Ok (SE3 (unframed (mexp (vscale s (trot (se3_log g)))))
     (Vmap (vscale s (trot (se3_log g))) (vscale s (ttrans (se3_log g)))) (se3_into g) (se3_from g)).
Proof. intros [_ F]. apply se3_exp_eq, F. Qed.
Lemma se3_interp_ends g : se3_wf g ->
  se3_interp g 0 = Ok (se3_id (se3_into g) (se3_from g)) /\
  exists h, se3_interp g 1 = Ok h /\
    rotation h = rotation g /\ se3_into h = se3_into g /\ se3_from h = se3_from g /\
    norm (vsub (translation h) (translation g)) <= / 10^15 * norm (translation g) /\
    (plain_angle (norm2 (trot (se3_log g))) -> h = g).
Proof.
  intro W. split.
  - rewrite se3_interp_eq by exact W. rewrite !vscale_0, Vmap_zero, mexp_zero. reflexivity.
  - unfold se3_interp. replace (tscale 1 (se3_log g)) with (se3_log g); [apply se3_exp_log, W|].
    destruct (se3_log g). unfold tscale. cbn. rewrite !vscale_1. reflexivity.
Qed.
Lemma se3_interp_screw g s h : se3_wf g -> se3_interp g s = Ok h ->
  rotation_matrix (rotation h) = mexp (vscale s (trot (se3_log g))) /\
  se3_into h = se3_into g /\ se3_from h = se3_from g /\
  norm (vsub (translation h) (screw (trot (se3_log g)) (ttrans (se3_log g)) s))
    <= / 10^23 * Rabs s * norm (ttrans (se3_log g)) /\
  (plain_angle (s * s * norm2 (trot (se3_log g))) ->
     translation h = screw (trot (se3_log g)) (ttrans (se3_log g)) s).
Proof.
  intros W. rewrite se3_interp_eq by exact W. intro E. injection E as <-. cbn.
  split; [reflexivity|]. split; [reflexivity|]. split; [reflexivity|]. split.
  - rewrite Rmult_assoc, <- norm_scale. apply Vmap_screw_err.
  - intro P. apply Vmap_screw. rewrite norm2_scale. exact P.
Qed.
Lemma se3_interp_subgroup g s t a b c : se3_wf g ->
  se3_interp g s = Ok a -> se3_interp g t = Ok b -> se3_interp g (s + t) = Ok c ->
  (forall v, se3_rotate c v = se3_rotate a (se3_rotate b v)) /\
  (forall p, norm (vsub (se3_act c p) (se3_act a (se3_act b p)))
     <= / 10^23 * (Rabs s + Rabs t + Rabs (s + t)) * norm (ttrans (se3_log g))) /\
  ((forall x, In x [s; t; s + t] -> plain_angle (x * x * norm2 (trot (se3_log g)))) ->
     forall p, se3_act c p = se3_act a (se3_act b p)).
Proof.
  intros W A B C.
  destruct (se3_interp_screw _ _ _ W A) as (RA & _ & _ & EA & XA).
  destruct (se3_interp_screw _ _ _ W B) as (RB & _ & _ & EB & XB).
  destruct (se3_interp_screw _ _ _ W C) as (RC & _ & _ & EC & XC).
  set (w := trot (se3_log g)) in *. set (v := ttrans (se3_log g)) in *.
  assert (RR : rotation_matrix (rotation c) = mmul (rotation_matrix (rotation a)) (rotation_matrix (rotation b)))
    by (rewrite RA, RB, RC, mexp_add; reflexivity).
  assert (D : forall p, vsub (se3_act c p) (se3_act a (se3_act b p)) =
    vadd (vsub (translation c) (screw w v (s + t)))
      (vneg (vadd (vsub (translation a) (screw w v s))
        (mvec (rotation_matrix (rotation a)) (vsub (translation b) (screw w v t)))))).
  { intro p. unfold se3_act, so3_act. rewrite RR, mvec_mmul, screw_add, <- RA, mvec_add, mvec_sub.
    generalize (mvec (rotation_matrix (rotation a)) (mvec (rotation_matrix (rotation b)) p))
      (mvec (rotation_matrix (rotation a)) (translation b)) (mvec (rotation_matrix (rotation a)) (screw w v t))
      (screw w v s) (translation a) (translation c). intros. vring. }
  split; [|split].
  - intro x. unfold se3_rotate, so3_act. rewrite RR. apply mvec_mmul.
  - intro p. rewrite D. eapply Rle_trans; [apply norm_triangle|]. rewrite norm_neg.
    eapply Rle_trans; [apply Rplus_le_compat_l, norm_triangle|].
    rewrite rot_norm by (rewrite RA; apply mexp_rot). lra.
  - intros P p.
    rewrite XA, XB, XC in D by (apply P; cbn; tauto). specialize (D p).
    assert (Z : vsub (se3_act c p) (se3_act a (se3_act b p)) = vzero).
    { rewrite D. replace (vsub (screw w v t) (screw w v t)) with vzero by vring. rewrite mvec_zero. vring. }
    revert Z. generalize (se3_act c p) (se3_act a (se3_act b p)). intros [x y z] [x' y' z'] Z.
    vsimpl. injection Z. intros. f_equal; lra.
Qed.
Lemma se3_interp_from_spec g s f : se3_wf g ->
  (se3_is_framed g = true -> f <> null_frame ->
     exists h h', se3_interp g s = Ok h /\ se3_interp_from g s f = Ok h' /\
       h' = SE3 (rotation h) (translation h) (se3_into g) f) /\
  (se3_is_framed g = false \/ f = null_frame -> se3_interp_from g s f = Throw).
Proof.
  intros W. pose proof W as [H F]. unfold se3_interp_from. split.
  - intros Fr N. rewrite Fr. cbn [reassert obind]. rewrite se3_interp_eq by exact W.
    eexists. eexists. split; [reflexivity|]. split.
    + apply se3_exp_eq. apply frames_ok_both; [apply se3_framed_iff, Fr|exact N].
    + reflexivity.
  - intros [E|E].
    + rewrite E. reflexivity.
    + destruct (se3_is_framed g) eqn:Fr; [|reflexivity]. cbn [reassert obind].
      subst f. apply se3_exp_throw. intros [_ X]. apply se3_framed_iff in Fr. apply Fr, X. reflexivity.
Qed.

(** ** Distances *)
Lemma norm_vsub_sym u v : norm (vsub u v) = norm (vsub v u).
Proof. rewrite <- norm_neg. f_equal. vring. Qed.
Lemma se3_inverse_distance_spec a b : se3_wf a -> se3_wf b ->
  (se3_into a = se3_into b -> exists a_from_b b_from_a,
     (let* i := se3_inverse a in se3_mul i b) = Ok a_from_b /\
     (let* i := se3_inverse b in se3_mul i a) = Ok b_from_a /\
     se3_inverse_distance a b = Ok (norm (translation a_from_b)) /\
     se3_inverse_distance a b = Ok (norm (translation b_from_a))) /\
  (se3_into a <> se3_into b -> se3_inverse_distance a b = Throw).
Proof.
  assert (K : forall a b, se3_wf a -> se3_wf b -> se3_into a = se3_into b -> exists r,
    (let* i := se3_inverse a in se3_mul i b) = Ok r /\
    norm (translation r) = norm (vsub (translation a) (translation b))).
  { clear. intros a b [Ra Fa] [Rb Fb] E. rewrite se3_inverse_eq by exact Fa. cbn [obind].
    rewrite se3_mul_match by (try assumption; apply se3_inv_framing, Fa). eexists. split; [reflexivity|].
    cbn [se3_times translation]. change (se3_mat (se3_inv a)) with (mtrans (se3_mat a)).
    change (translation (se3_inv a)) with (mvec (mtrans (se3_mat a)) (vneg (translation a))).
    rewrite <- mvec_add, rot_norm by (apply rot_mtrans, Ra). rewrite norm_vsub_sym. f_equal. }
  intros A B. split.
  - intro E. destruct (K a b A B E) as (r & E1 & N1). destruct (K b a B A (eq_sym E)) as (q & E2 & N2).
    exists r, q. split; [exact E1|]. split; [exact E2|]. rewrite N1, N2, (norm_vsub_sym (translation b)).
    unfold se3_inverse_distance. rewrite (proj2 (frame_eqb_eq _ _) E). split; reflexivity.
  - intro N. unfold se3_inverse_distance. rewrite frame_eqb_neq by exact N. reflexivity.
Qed.
Lemma se3_distance_spec a b : se3_wf a -> se3_wf b ->
  (se3_from a = se3_from b -> exists d ib a_from_b,
     se3_distance a b = Ok d /\ se3_inverse b = Ok ib /\ se3_mul a ib = Ok a_from_b /\
     translation a_from_b =
       vsub (translation a) (so3_act (rotation a_from_b) (translation b)) /\
     d = norm (vsub (translation a) (translation b)) /\
     (rotation a = rotation b -> d = norm (translation a_from_b))) /\
  (se3_from a <> se3_from b -> se3_distance a b = Throw).
Proof.
  intros [Ra Fa] [Rb Fb]. split.
  - intro E. unfold se3_distance. rewrite (proj2 (frame_eqb_eq _ _) E). cbn [reassert obind].
    rewrite se3_inverse_eq by exact Fb. do 3 eexists. split; [reflexivity|]. split; [reflexivity|].
    rewrite se3_mul_match; [|exact Fa|apply se3_inv_framing, Fb|exact E]. split; [reflexivity|].
    cbn [se3_times translation rotation so3_act rotation_matrix unframed].
    change (se3_mat (se3_inv b)) with (mtrans (se3_mat b)).
    change (translation (se3_inv b)) with (mvec (mtrans (se3_mat b)) (vneg (translation b))).
    rewrite <- !mvec_mmul, mvec_neg.
    assert (X : vadd (vneg (mvec (mmul (se3_mat a) (mtrans (se3_mat b))) (translation b))) (translation a) =
      vsub (translation a) (mvec (mmul (se3_mat a) (mtrans (se3_mat b))) (translation b)))
      by (generalize (mvec (mmul (se3_mat a) (mtrans (se3_mat b))) (translation b)); intros; vring).
    rewrite X. split; [reflexivity|]. split; [reflexivity|]. intro Q.
    assert (Q' : se3_mat a = se3_mat b) by (unfold se3_mat; rewrite Q; reflexivity).
    rewrite Q', rot_mtrans_r, mvec_1 by exact Rb. reflexivity.
  - intro N. unfold se3_distance. rewrite frame_eqb_neq by exact N. reflexivity.
Qed.
Lemma distance_symmetric a b :
  se3_distance a b = se3_distance b a /\ se3_inverse_distance a b = se3_inverse_distance b a.
Proof.
  unfold se3_distance, se3_inverse_distance.
  assert (S : forall x y, frame_eqb x y = frame_eqb y x).
  { intros x y. destruct (frame_dec x y) as [->|N]; [reflexivity|]. rewrite !frame_eqb_neq; congruence. }
  rewrite (S (se3_from b)), (S (se3_into b)), (norm_vsub_sym (translation b)). split; reflexivity.
Qed.
Definition quarter_z : mat3 := M3 0 (-1) 0 1 0 0 0 0 1.
Lemma quarter_z_rot : is_rotation quarter_z.
Proof. unfold is_rotation, det, quarter_z. split; vring. Qed.
Lemma se3_distance_refuted : exists a b ib a_from_b d, se3_wf a /\ se3_wf b /\
  se3_inverse b = Ok ib /\ se3_mul a ib = Ok a_from_b /\ se3_distance a b = Ok d /\
  d <> norm (translation a_from_b).
Proof.
  set (a := SE3 (unframed mid) (V3 1 0 0) null_frame null_frame).
  set (b := SE3 (unframed quarter_z) (V3 1 0 0) null_frame null_frame).
  assert (W : forall m t, is_rotation m -> se3_wf (SE3 (unframed m) t null_frame null_frame)).
  { intros m t H. split; [exact H|]. split; [apply frames_ok_null|split; reflexivity]. }
  exists a, b. do 3 eexists. split; [apply W, rot_mid|]. split; [apply W, quarter_z_rot|].
  split; [reflexivity|]. split; [reflexivity|]. split; [reflexivity|].
  cbn [translation]. intro E.
  assert (Z : norm (vsub (V3 1 0 0) (V3 1 0 0)) = 0) by apply norm_vsub_self.
  unfold a, b in E. cbn [translation] in E. rewrite Z in E. symmetry in E. apply norm_zero in E.
  apply (f_equal vy) in E. unfold quarter_z in E. cbn in E. lra.
Qed.

(** ** Histories stay within the rotations *)
Definition obj_rot (o : obj) : Prop :=
  match o with
  | OSO3 g => is_rotation (rotation_matrix g) | OSE3 g => is_rotation (rotation_matrix (rotation g))
  end.
Lemma put_rot s i o : Forall obj_rot s -> obj_rot o -> Forall obj_rot (put s i o).
Proof. intros H Ho. revert i. induction H as [|x s Hx H IH]; intros [|i]; cbn; auto. Qed.
Lemma nth_rot s i o : Forall obj_rot s -> nth_error s i = Some o -> obj_rot o.
Proof. intros H E. eapply Forall_forall; [exact H|]. eapply nth_error_In, E. Qed.
Lemma new_so3_rot s r s' : Forall obj_rot s -> (forall g, r = Ok g -> is_rotation (rotation_matrix g)) ->
  new_so3 s r = Ok s' -> Forall obj_rot s'.
Proof.
  intros H Hr E. unfold new_so3 in E. apply obind_ok in E as (g & Eg & E). injection E as <-.
  apply Forall_app. split; [exact H|]. constructor; [exact (Hr _ Eg)|constructor].
Qed.
Lemma new_se3_rot s r s' : Forall obj_rot s -> (forall g, r = Ok g -> is_rotation (rotation_matrix (rotation g))) ->
  new_se3 s r = Ok s' -> Forall obj_rot s'.
Proof.
  intros H Hr E. unfold new_se3 in E. apply obind_ok in E as (g & Eg & E). injection E as <-.
  apply Forall_app. split; [exact H|]. constructor; [exact (Hr _ Eg)|constructor].
Qed.
Lemma so3_of_matrix_rot m a g : is_rotation m -> so3_of_matrix m a = Ok g -> is_rotation (rotation_matrix g).
Proof. intros H E. unfold so3_of_matrix in E. apply obind_ok in E as ((i, f) & _ & E). injection E as <-. exact H. Qed.
Lemma so3_of_angle_axis_rot t u a g : unit_vec u -> so3_of_angle_axis t u a = Ok g -> is_rotation (rotation_matrix g).
Proof. intros U E. apply (so3_angle_axis_spec t u a g U E). Qed.
Lemma so3_exp_rot v a g : so3_exp v a = Ok g -> is_rotation (rotation_matrix g).
Proof. intro E. apply (so3_exp_spec v a g E). Qed.
Lemma se3_make_rot r t a g : is_rotation (rotation_matrix r) -> se3_make r t a = Ok g ->
  is_rotation (rotation_matrix (rotation g)).
Proof. intros H E. unfold se3_make in E. apply obind_ok in E as ((i, f) & _ & E). injection E as <-. exact H. Qed.
Lemma se3_exp_rot v a g : se3_exp v a = Ok g -> is_rotation (rotation_matrix (rotation g)).
Proof. intro E. apply (se3_exp_spec v a g E). Qed.
Lemma so3_mul_rot a b g : is_rotation (rotation_matrix a) -> is_rotation (rotation_matrix b) ->
  so3_mul a b = Ok g -> is_rotation (rotation_matrix g).
Proof.
  intros A B E. unfold so3_mul in E. destruct (_ || _).
  - injection E as <-. apply rot_mmul; assumption.
  - apply obind_ok in E as (? & _ & E). eapply so3_of_matrix_rot; [|exact E]. apply rot_mmul; assumption.
Qed.
Lemma se3_mul_rot a b g : is_rotation (rotation_matrix (rotation a)) -> is_rotation (rotation_matrix (rotation b)) ->
  se3_mul a b = Ok g -> is_rotation (rotation_matrix (rotation g)).
Proof.
  intros A B E. unfold se3_mul in E. apply obind_ok in E as (r & Er & E). apply so3_mul_rot in Er; try assumption.
  destruct (_ || _).
  - eapply se3_make_rot; eassumption.
  - apply obind_ok in E as (? & _ & E). eapply se3_make_rot; eassumption.
Qed.
Lemma so3_inverse_rot a g : is_rotation (rotation_matrix a) -> so3_inverse a = Ok g -> is_rotation (rotation_matrix g).
Proof. intros H E. eapply so3_of_matrix_rot; [|exact E]. apply rot_mtrans, H. Qed.
Lemma se3_inverse_rot a g : is_rotation (rotation_matrix (rotation a)) -> se3_inverse a = Ok g ->
  is_rotation (rotation_matrix (rotation g)).
Proof.
  intros H E. unfold se3_inverse in E. apply obind_ok in E as (r & Er & E).
  eapply se3_make_rot; [|exact E]. eapply so3_inverse_rot; eassumption.
Qed.
Lemma call_rot s c s' : call_sane c -> Forall obj_rot s -> call_result s c = Ok s' -> Forall obj_rot s'.
Proof.
  intros SN H. destruct c; cbn [call_result call_sane] in *; intro E;
    repeat match type of E with
           | context [match nth_error ?s ?i with _ => _ end] =>
               let N := fresh "N" in destruct (nth_error s i) as [[?|?]|] eqn:N
           end;
    try (injection E as <-; exact H);
    try (eapply new_so3_rot; [exact H| |exact E]; intros ? ?);
    try (eapply new_se3_rot; [exact H| |exact E]; intros ? ?);
    try (injection E as <-; apply put_rot; [exact H|]; exact (nth_rot _ _ _ H ltac:(eassumption)));
    try (injection E as <-; apply Forall_app; split; [exact H|]; constructor; [|constructor]).
  - match goal with X : Ok _ = Ok _ |- _ => injection X as <- end. apply rot_mid.
  - eapply so3_of_matrix_rot; eassumption.
  - eapply so3_of_angle_axis_rot; eassumption.
  - eapply so3_quat_spec; eassumption.
  - eapply so3_of_matrix_rot; [apply rot_mid|eassumption].
  - eapply so3_exp_rot; eassumption.
  - match goal with X : unpack_so3 _ = Ok _ |- _ => unfold unpack_so3 in X;
      apply obind_ok in X as (? & _ & X); apply obind_ok in X as (? & _ & X);
      apply obind_ok in X as (? & _ & X); eapply so3_exp_rot, X end.
  - match goal with X : Ok _ = Ok _ |- _ => injection X as <- end. apply rot_mid.
  - eapply (se3_make_rot _ vzero); [|eassumption]. exact (nth_rot _ _ _ H N).
  - match goal with X : se3_of_translation _ _ = Ok _ |- _ =>
      change (se3_of_translation t a) with (se3_make so3_default t a) in X end.
    eapply se3_make_rot; [|eassumption]. apply rot_mid.
  - eapply se3_make_rot; [|eassumption]. exact (nth_rot _ _ _ H N).
  - eapply (se3_make_rot so3_default vzero); [|eassumption]. apply rot_mid.
  - eapply se3_exp_rot; eassumption.
  - match goal with X : unpack_se3 _ = Ok _ |- _ => unfold unpack_se3 in X;
      apply obind_ok in X as (? & _ & X); apply obind_ok in X as (? & _ & X);
      apply obind_ok in X as (? & _ & X); eapply se3_exp_rot, X end.
  - exact (nth_rot _ _ _ H N).
  - exact (nth_rot _ _ _ H N).
  - exact (nth_rot _ _ _ H N).
  - eapply so3_mul_rot; [| |eassumption]; [exact (nth_rot _ _ _ H N)|exact (nth_rot _ _ _ H N0)].
  - eapply se3_mul_rot; [| |eassumption]; [exact (nth_rot _ _ _ H N)|exact (nth_rot _ _ _ H N0)].
  - eapply so3_inverse_rot; [|eassumption]. exact (nth_rot _ _ _ H N).
  - eapply se3_inverse_rot; [|eassumption]. exact (nth_rot _ _ _ H N).
  - eapply so3_exp_rot; eassumption.
  - eapply se3_exp_rot; eassumption.
  - match goal with X : so3_interp_from _ _ _ = Ok _ |- _ => unfold so3_interp_from in X;
      apply obind_ok in X as (? & _ & X); eapply so3_exp_rot, X end.
  - match goal with X : se3_interp_from _ _ _ = Ok _ |- _ => unfold se3_interp_from in X;
      apply obind_ok in X as (? & _ & X); eapply se3_exp_rot, X end.
  - apply obind_ok in E as (g' & Eg & E). injection E as <-. apply put_rot; [exact H|].
    unfold so3_set_frames in Eg. destruct (frame_is_null into), (frame_is_null from);
      cbn in Eg; try discriminate. injection Eg as <-. exact (nth_rot _ _ _ H N).
  - apply obind_ok in E as (g' & Eg & E). injection E as <-. apply put_rot; [exact H|].
    unfold se3_set_frames in Eg. destruct (frame_is_null into), (frame_is_null from);
      cbn in Eg; try discriminate. injection Eg as <-. exact (nth_rot _ _ _ H N).
Qed.
Lemma history_rot s cs : Forall call_sane cs -> Forall obj_rot s -> Forall obj_rot (history s cs).
Proof.
  intro SN. revert s. induction SN as [|c cs Hc SN IH]; intros s H; cbn [history]; [exact H|].
  apply IH. destruct (call_result s c) eqn:E; try exact H. eapply call_rot; eassumption.
Qed.
Lemma history_wf cs o : Forall call_sane cs -> In o (history [] cs) -> obj_wf o.
Proof.
  intros SN I. pose proof (history_rot [] cs SN (Forall_nil _)) as H.
  pose proof (history_ok [] cs (Forall_nil _)) as K. rewrite Forall_forall in H, K.
  specialize (H o I). specialize (K o I). destruct o; split; assumption.
Qed.

(** ** Statements for the property file *)
Lemma so3_neutral_laws g : so3_wf g ->
  so3_identity (Some (so3_into g, so3_into g)) = Ok (so3_id (so3_into g) (so3_into g)) /\
  so3_mul (so3_id (so3_into g) (so3_into g)) g = Ok g /\
  so3_mul g (so3_id (so3_from g) (so3_from g)) = Ok g.
Proof. intro W. split; [apply so3_identity_eq, frames_ok_self|apply so3_neutral, W]. Qed.
Lemma se3_neutral_laws g : se3_wf g ->
  se3_identity (Some (se3_into g, se3_into g)) = Ok (se3_id (se3_into g) (se3_into g)) /\
  se3_mul (se3_id (se3_into g) (se3_into g)) g = Ok g /\
  se3_mul g (se3_id (se3_from g) (se3_from g)) = Ok g.
Proof. intro W. split; [apply se3_identity_eq, frames_ok_self|apply se3_neutral, W]. Qed.
Lemma so3_geometry g v w : so3_wf g ->
  dot (so3_act g v) (so3_act g w) = dot v w /\ norm (so3_act g v) = norm v /\
  cross (so3_act g v) (so3_act g w) = so3_act g (cross v w).
Proof. intros [H _]. split; [apply rot_dot, H|]. split; [apply rot_norm, H|apply rot_cross, H]. Qed.
Lemma so3_exp_turns angle axis a g : norm2 axis = 1 -> so3_exp (vscale angle axis) a = Ok g ->
  so3_wf g /\ forall v, so3_act g v = turned angle axis v.
Proof.
  intros U E. destruct (so3_exp_spec _ _ _ E) as [W M]. split; [exact W|]. intro v.
  unfold so3_act. rewrite M, mexp_unit by exact U. apply angle_axis_turned, U.
Qed.
Lemma se3_action a b r : se3_wf a -> se3_wf b -> se3_mul a b = Ok r ->
  se3_wf r /\ (forall p, se3_act r p = se3_act a (se3_act b p)) /\
  (forall i f p, se3_act (se3_id i f) p = p).
Proof.
  intros A B E. destruct (se3_mul_closed a b r A B E) as [W K]. split; [exact W|]. split; [exact K|apply se3_id_act].
Qed.
Lemma so3_log_shortest g : so3_wf g ->
  norm (so3_log g) <= PI /\
  forall v a h, so3_exp v a = Ok h -> rotation_matrix h = rotation_matrix g -> norm (so3_log g) <= norm v.
Proof.
  intro W. split; [apply so3_log_bound, W|]. intros v a h E M. apply log_shortest; [exact W|].
  rewrite <- M. symmetry. apply (so3_exp_spec v a h E).
Qed.
Lemma adjoint_matrices (g : so3) (h : se3) v w a b :
  mvec (so3_adjoint g) v = so3_adjoint_times g v /\
  mvec (so3_adjoint_alg v) w = so3_adjoint_times_alg v w /\
  mat6_times (se3_adjoint h) a = se3_adjoint_times h a /\
  mat6_times (se3_adjoint_alg a) b = se3_adjoint_times_alg a b.
Proof.
  split; [apply so3_adjoint_matrix|]. split; [apply cross_matrix_mvec|].
  split; [apply se3_adjoint_matrix|apply se3_adjoint_alg_matrix].
Qed.
Lemma adjoint_products (a b r : so3) (c d q : se3) v alg :
  so3_wf a -> so3_wf b -> so3_mul a b = Ok r -> se3_wf c -> se3_wf d -> se3_mul c d = Ok q ->
  so3_adjoint_times r v = so3_adjoint_times a (so3_adjoint_times b v) /\
  se3_adjoint_times q alg = se3_adjoint_times c (se3_adjoint_times d alg).
Proof.
  intros A B R C D Q. split; [eapply so3_adjoint_mul; eassumption|eapply se3_adjoint_mul; eassumption].
Qed.
Lemma bracket_is_commutator v w a b :
  cross_matrix (so3_adjoint_times_alg v w) =
    madd (mmul (cross_matrix v) (cross_matrix w)) (mscale (-1) (mmul (cross_matrix w) (cross_matrix v))) /\
  hat6 (se3_adjoint_times_alg a b) = hat_sub (hat_mul (hat6 a) (hat6 b)) (hat_mul (hat6 b) (hat6 a)).
Proof. split; [apply so3_bracket|apply se3_bracket]. Qed.
Lemma bracket_preserved (g : so3) (h : se3) v w a b : so3_wf g -> se3_wf h ->
  so3_adjoint_times g (so3_adjoint_times_alg v w) =
    so3_adjoint_times_alg (so3_adjoint_times g v) (so3_adjoint_times g w) /\
  se3_adjoint_times h (se3_adjoint_times_alg a b) =
    se3_adjoint_times_alg (se3_adjoint_times h a) (se3_adjoint_times h b).
Proof. intros G H. split; [apply so3_adjoint_bracket, G|apply se3_adjoint_bracket, H]. Qed.
Lemma so3_interp_law g s t : so3_wf g -> exists a b c,
  so3_interp g s = Ok a /\ so3_interp g t = Ok b /\ so3_interp g (s + t) = Ok c /\
  so3_into a = so3_into g /\ so3_from a = so3_from g /\ so3_wf a /\
  forall v, so3_act c v = so3_act a (so3_act b v).
Proof.
  intro W. do 3 eexists.
  split; [apply so3_interp_eq, W|]. split; [apply so3_interp_eq, W|]. split; [apply so3_interp_eq, W|].
  split; [reflexivity|]. split; [reflexivity|]. split; [split; [apply mexp_rot|exact (proj2 W)]|].
  eapply so3_interp_subgroup; [exact W|apply so3_interp_eq, W..].
Qed.
Lemma so3_interp_turned g s h : so3_wf g -> so3_interp g s = Ok h ->
  exists angle axis, norm2 axis = 1 /\ (forall v, so3_act g v = turned angle axis v) /\
    0 <= angle <= PI /\ forall v, so3_act h v = turned (s * angle) axis v.
Proof.
  intros W E. rewrite so3_interp_eq in E by exact W. injection E as <-.
  destruct (vec3_polar (so3_log g)) as (u & U & P). exists (norm (so3_log g)), u.
  split; [exact U|]. split; [|split].
  - intro v. unfold so3_act. rewrite <- angle_axis_turned, <- mexp_unit, <- P by exact U.
    unfold so3_log. rewrite mexp_mlog by apply W. reflexivity.
  - split; [apply norm_nonneg|apply so3_log_bound, W].
  - intro v. unfold so3_act. cbn [rotation_matrix]. rewrite P at 1.
    rewrite vscale_vscale, mexp_unit by exact U. apply angle_axis_turned, U.
Qed.
Lemma se3_interp_law g s t : se3_wf g -> exists a b c,
  se3_interp g s = Ok a /\ se3_interp g t = Ok b /\ se3_interp g (s + t) = Ok c /\
  se3_into a = se3_into g /\ se3_from a = se3_from g /\ se3_wf a /\
  (forall v, se3_rotate c v = se3_rotate a (se3_rotate b v)) /\
  (forall p, norm (vsub (se3_act c p) (se3_act a (se3_act b p)))
     <= / 10^23 * (Rabs s + Rabs t + Rabs (s + t)) * norm (ttrans (se3_log g))) /\
  ((forall x, In x [s; t; s + t] -> plain_angle (x * x * norm2 (trot (se3_log g)))) ->
     forall p, se3_act c p = se3_act a (se3_act b p)).
Proof.
  intro W. do 3 eexists.
  split; [apply se3_interp_eq, W|]. split; [apply se3_interp_eq, W|]. split; [apply se3_interp_eq, W|].
  split; [reflexivity|]. split; [reflexivity|].
  split; [split; [apply mexp_rot|split; [exact (proj1 (proj2 W))|split; reflexivity]]|].
  eapply se3_interp_subgroup; [exact W|apply se3_interp_eq, W..].
Qed.
Lemma interp_from_spec (g : so3) (k : se3) s f : so3_wf g -> se3_wf k ->
  (so3_is_framed g = true -> f <> null_frame -> exists h,
     so3_interp g s = Ok h /\ so3_interp_from g s f = Ok (SO3 (rotation_matrix h) (so3_into g) f)) /\
  (so3_is_framed g = false \/ f = null_frame -> so3_interp_from g s f = Throw) /\
  (se3_is_framed k = true -> f <> null_frame -> exists h,
     se3_interp k s = Ok h /\ se3_interp_from k s f = Ok (SE3 (rotation h) (translation h) (se3_into k) f)) /\
  (se3_is_framed k = false \/ f = null_frame -> se3_interp_from k s f = Throw).
Proof.
  intros G K. destruct (so3_interp_from_spec g s f G) as [A B].
  destruct (se3_interp_from_spec k s f K) as [C D].
  split; [|split; [exact B|split; [|exact D]]].
  - intros Fr N. eexists. split; [apply so3_interp_eq, G|]. exact (A Fr N).
  - intros Fr N. destruct (C Fr N) as (h & h' & E & E' & ->). exists h. split; assumption.
Qed.
Lemma se3_distance_law a b : se3_wf a -> se3_wf b ->
  (se3_from a = se3_from b -> exists d ib a_from_b,
     se3_distance a b = Ok d /\ se3_inverse b = Ok ib /\ se3_mul a ib = Ok a_from_b /\
     translation a_from_b =
       vsub (translation a) (so3_act (rotation a_from_b) (translation b)) /\
     d = distance (se3_act a vzero) (se3_act b vzero) /\
     (rotation a = rotation b -> d = norm (translation a_from_b))) /\
  (se3_from a <> se3_from b -> se3_distance a b = Throw).
Proof.
  intros A B. destruct (se3_distance_spec a b A B) as [X Y]. split; [|exact Y].
  intro E. destruct (X E) as (d & ib & r & D & I & M & T & N & Q). exists d, ib, r.
  split; [exact D|]. split; [exact I|]. split; [exact M|]. split; [exact T|]. split; [|exact Q].
  unfold distance. rewrite (proj2 (proj2 (se3_isometry a vzero vzero A))), (proj2 (proj2 (se3_isometry b vzero vzero B))).
  exact N.
Qed.
