From Verif Require Import Cpp UuidModel RotSpec GeomModel FrameSpec FrameProofs LieSpec RotProofs LieProofs JetModel ApproxModel ApproxSpec.
Local Open Scope R_scope.

Lemma fuzzy_iff d a b : fuzzy d a b = true <-> d <= / 10^12 * / 10^12 * Rmin a b.
Proof. unfold fuzzy. destruct (Rle_dec _ _); split; intros; auto; discriminate || contradiction. Qed.
Lemma fuzzy_sym d a b : fuzzy d a b = fuzzy d b a.
Proof. unfold fuzzy. rewrite (Rmin_comm a b). reflexivity. Qed.
Lemma fuzzy_zero a : 0 <= a -> fuzzy 0 a a = true.
Proof. intro H. apply fuzzy_iff. rewrite Rmin_left by lra. nra. Qed.

Lemma mnorm2_nonneg m : 0 <= mnorm2 m.
Proof. unfold mnorm2. nra. Qed.
Lemma tnorm2_nonneg a : 0 <= tnorm2 a.
Proof. unfold tnorm2. pose proof (norm2_nonneg (trot a)). pose proof (norm2_nonneg (ttrans a)). lra. Qed.
Definition tr (m : mat3) : R := m00 m + m11 m + m22 m.
Lemma mnorm2_diff a b :
  mnorm2 (madd a (mscale (-1) b)) = mnorm2 a + mnorm2 b - 2 * tr (mmul (mtrans a) b).
Proof. unfold mnorm2, tr. vsimpl. ring. Qed.
Lemma mnorm2_tr m : mnorm2 m = tr (mmul (mtrans m) m).
Proof. unfold mnorm2, tr. vsimpl. ring. Qed.
Lemma rot_mnorm2 m : is_rotation m -> mnorm2 m = 3.
Proof. intro H. rewrite mnorm2_tr, (rot_mtrans_l _ H). unfold tr. cbn. ring. Qed.
Lemma tr_angle_axis t u : norm2 u = 1 -> tr (angle_axis_matrix t u) = 1 + 2 * cos t.
Proof.
  unfold norm2, dot, tr, angle_axis_matrix. vsimpl. intro H.
  replace ((1 - cos t) * vx u * vx u + cos t + ((1 - cos t) * vy u * vy u + cos t)
    + ((1 - cos t) * vz u * vz u + cos t))
    with ((1 - cos t) * (vx u * vx u + vy u * vy u + vz u * vz u) + 3 * cos t) by ring.
  rewrite H. ring.
Qed.
Lemma mat_approx_rot a b : is_rotation a -> is_rotation b ->
  mat_is_approx a b = true <-> 6 - 2 * tr (mmul (mtrans a) b) <= 3 * / 10^24.
Proof.
  intros Ha Hb. unfold mat_is_approx. rewrite fuzzy_iff, mnorm2_diff, (rot_mnorm2 a), (rot_mnorm2 b) by assumption.
  rewrite Rmin_left by lra. split; intro H; lra.
Qed.

Lemma apart_matrix a b t : turn_apart a b t -> exists u, norm2 u = 1 /\
  rotation_matrix b = mmul (rotation_matrix a) (angle_axis_matrix t u).
Proof.
  intros (_ & u & Hu & H). exists u. split; [exact Hu|].
  apply mat3_ext. intro v. rewrite mvec_mmul, (angle_axis_turned t u v) by exact Hu. apply H.
Qed.
Lemma apart_tr a b t : is_rotation (rotation_matrix a) -> turn_apart a b t ->
  tr (mmul (mtrans (rotation_matrix a)) (rotation_matrix b)) = 1 + 2 * cos t.
Proof.
  intros Ha H. destruct (apart_matrix _ _ _ H) as (u & Hu & ->).
  rewrite mmul_assoc, (rot_mtrans_l _ Ha), mmul_1_l. apply tr_angle_axis, Hu.
Qed.
Lemma apart_exists a b : is_rotation (rotation_matrix a) -> is_rotation (rotation_matrix b) ->
  exists t, turn_apart a b t.
Proof.
  intros Ha Hb.
  pose (m := mmul (mtrans (rotation_matrix a)) (rotation_matrix b)).
  assert (Hm : is_rotation m) by (apply rot_mmul; [apply rot_mtrans|]; assumption).
  destruct (vec3_polar (matrix_log m)) as (u & Hu & E).
  exists (norm (matrix_log m)). split; [split; [apply norm_nonneg|apply mlog_norm, Hm]|].
  exists u. split; [exact Hu|]. intro v.
  rewrite <- (angle_axis_turned _ u v Hu), <- mvec_mmul. f_equal.
  rewrite <- mexp_unit by exact Hu. rewrite <- E, (mexp_mlog _ Hm). unfold m.
  rewrite mmul_assoc, (rot_mtrans_r _ Ha), mmul_1_l. reflexivity.
Qed.

Lemma half_angle t : 4 - 4 * cos t = 8 * (sin (t / 2))^2.
Proof.
  replace (cos t) with (cos (2 * (t / 2))) by (f_equal; lra).
  rewrite cos_2a_sin. ring.
Qed.
Lemma so3_verify_iff a i f : so3_verify_frames a i f = true <-> so3_into a = i /\ so3_from a = f.
Proof. unfold so3_verify_frames. rewrite andb_true_iff, !frame_eqb_eq. reflexivity. Qed.
Lemma se3_verify_iff a i f : se3_verify_frames a i f = true <-> se3_into a = i /\ se3_from a = f.
Proof. unfold se3_verify_frames. rewrite andb_true_iff, !frame_eqb_eq. reflexivity. Qed.

Lemma so3_approx_angle a b : so3_wf a -> so3_wf b ->
  (exists t, turn_apart a b t) /\
  forall t, turn_apart a b t ->
    (so3_is_approx_transform a b = true <-> 8 * (sin (t / 2))^2 <= 3 * / 10^24) /\
    (so3_is_approx a b = true <->
       so3_into a = so3_into b /\ so3_from a = so3_from b /\ 8 * (sin (t / 2))^2 <= 3 * / 10^24).
Proof.
  intros [Ha _] [Hb _]. split; [apply apart_exists; assumption|]. intros t H.
  assert (E : so3_is_approx_transform a b = true <-> 8 * (sin (t / 2))^2 <= 3 * / 10^24).
  { unfold so3_is_approx_transform. rewrite mat_approx_rot, (apart_tr a b t), <- half_angle by assumption.
    split; intro; lra. }
  split; [exact E|]. unfold so3_is_approx. rewrite andb_true_iff, E, so3_verify_iff. tauto.
Qed.

(** The angle itself. *)
Lemma sin_half_small t : 0 <= t <= 12 / 10 * / 10^12 -> 8 * (sin (t / 2))^2 <= 3 * / 10^24.
Proof.
  intros [H0 H1].
  assert (P : 3 < PI) by (pose proof PI2_3_2; lra).
  assert (S0 : 0 <= sin (t / 2)) by (apply sin_ge_0; lra).
  assert (S1 : sin (t / 2) <= t / 2).
  { destruct (Req_dec t 0) as [->|N]; [replace (0 / 2) with 0 by lra; rewrite sin_0; lra|].
    apply Rlt_le, sin_lt_x. lra. }
  assert (Q : sin (t / 2) <= 6 / 10 * / 10^12) by lra.
  assert (Q2 : (sin (t / 2))^2 <= (6 / 10 * / 10^12)^2) by (apply pow_incr; lra).
  lra.
Qed.
Lemma sin_half_large t : 13 / 10 * / 10^12 <= t <= PI -> 3 * / 10^24 < 8 * (sin (t / 2))^2.
Proof.
  intros [H0 H1].
  assert (P : 3 < PI) by (pose proof PI2_3_2; lra).
  pose (x := 65 / 100 * / 10^12).
  assert (S : sin x <= sin (t / 2)) by (apply sin_incr_1; unfold x; lra).
  assert (L : x - x^3 / 6 <= sin x).
  { destruct (pre_sin_bound x 0) as [L _]; [unfold x; lra|unfold x; lra|].
    unfold sin_approx, sin_term in L. cbn [sum_f_R0 Nat.mul Nat.add pow fact INR] in L.
    change (INR (fact 1)) with 1 in L. change (INR (fact 3)) with 6 in L. lra. }
  assert (X : 62 / 100 * / 10^12 <= x - x^3 / 6) by (unfold x; lra).
  assert (Q : (62 / 100 * / 10^12)^2 <= (sin (t / 2))^2) by (apply pow_incr; lra).
  lra.
Qed.
Lemma so3_approx_threshold a b t : so3_wf a -> so3_wf b -> turn_apart a b t ->
  (t <= 12 / 10 * precision -> so3_is_approx_transform a b = true) /\
  (13 / 10 * precision <= t -> so3_is_approx_transform a b = false).
Proof.
  unfold precision. intros Ha Hb H. destruct (proj2 (so3_approx_angle a b Ha Hb) t H) as [E _]. destruct H as [T _].
  split; intro L.
  - apply E, sin_half_small. lra.
  - destruct (so3_is_approx_transform a b); [|reflexivity].
    assert (8 * (sin (t / 2))^2 <= 3 * / 10^24) by (apply E; reflexivity).
    pose proof (sin_half_large t). lra.
Qed.

Lemma tr_comm a b : tr (mmul a b) = tr (mmul b a).
Proof. unfold tr. vsimpl. ring. Qed.
Lemma tr_trans m : tr (mtrans m) = tr m.
Proof. unfold tr. vsimpl. ring. Qed.
Lemma mat_approx_eq a b c d : is_rotation a -> is_rotation b -> is_rotation c -> is_rotation d ->
  tr (mmul (mtrans a) b) = tr (mmul (mtrans c) d) -> mat_is_approx a b = mat_is_approx c d.
Proof.
  intros Ha Hb Hc Hd E. apply Bool.eq_true_iff_eq. rewrite !mat_approx_rot, E by assumption. reflexivity.
Qed.
Lemma mat_approx_left c a b : is_rotation a -> is_rotation b -> is_rotation c ->
  mat_is_approx (mmul c a) (mmul c b) = mat_is_approx a b.
Proof.
  intros. apply mat_approx_eq; try assumption; try (apply rot_mmul; assumption).
  rewrite mtrans_mmul, <- mmul_assoc, (mmul_assoc (mtrans c) c b), rot_mtrans_l by assumption.
  rewrite mmul_1_l. reflexivity.
Qed.
Lemma mat_approx_right c a b : is_rotation a -> is_rotation b -> is_rotation c ->
  mat_is_approx (mmul a c) (mmul b c) = mat_is_approx a b.
Proof.
  intros. apply mat_approx_eq; try assumption; try (apply rot_mmul; assumption).
  rewrite mtrans_mmul, <- mmul_assoc, tr_comm, <- !mmul_assoc, rot_mtrans_r by assumption.
  rewrite mmul_1_r. reflexivity.
Qed.
Lemma mat_approx_trans a b : is_rotation a -> is_rotation b ->
  mat_is_approx (mtrans a) (mtrans b) = mat_is_approx a b.
Proof.
  intros. apply mat_approx_eq; try assumption; try (apply rot_mtrans; assumption).
  rewrite mtrans_mtrans, tr_comm, <- (tr_trans (mmul (mtrans b) a)), mtrans_mmul, mtrans_mtrans. reflexivity.
Qed.
Lemma so3_mul_matrix a b r : so3_mul a b = Ok r -> rotation_matrix r = mmul (rotation_matrix a) (rotation_matrix b).
Proof.
  unfold so3_mul, so3_of_matrix, make_frames, reassert. intro H.
  destruct (negb (so3_is_framed a) || negb (so3_is_framed b))%bool; cbn in H; [injection H as <-; reflexivity|].
  destruct (frame_eqb (so3_from a) (so3_into b)); cbn in H; [|discriminate].
  destruct (Bool.eqb _ _); cbn in H; [injection H as <-; reflexivity|discriminate].
Qed.
Lemma so3_inverse_matrix a r : so3_inverse a = Ok r -> rotation_matrix r = mtrans (rotation_matrix a).
Proof.
  unfold so3_inverse, so3_of_matrix, make_frames, reassert. intro H.
  destruct (Bool.eqb _ _); cbn in H; [injection H as <-; reflexivity|discriminate].
Qed.
Lemma so3_approx_invariant a b c : so3_wf a -> so3_wf b -> so3_wf c ->
  (forall ca cb, so3_mul c a = Ok ca -> so3_mul c b = Ok cb ->
     so3_is_approx_transform ca cb = so3_is_approx_transform a b) /\
  (forall ac bc, so3_mul a c = Ok ac -> so3_mul b c = Ok bc ->
     so3_is_approx_transform ac bc = so3_is_approx_transform a b) /\
  (forall ai bi, so3_inverse a = Ok ai -> so3_inverse b = Ok bi ->
     so3_is_approx_transform ai bi = so3_is_approx_transform a b).
Proof.
  intros [Ha _] [Hb _] [Hc _]. unfold so3_is_approx_transform. split; [|split]; intros x y Hx Hy.
  - rewrite (so3_mul_matrix _ _ _ Hx), (so3_mul_matrix _ _ _ Hy). apply mat_approx_left; assumption.
  - rewrite (so3_mul_matrix _ _ _ Hx), (so3_mul_matrix _ _ _ Hy). apply mat_approx_right; assumption.
  - rewrite (so3_inverse_matrix _ _ Hx), (so3_inverse_matrix _ _ Hy). apply mat_approx_trans; assumption.
Qed.

(** Reflexive and symmetric, whatever the values. *)
Lemma mat_approx_refl a : mat_is_approx a a = true.
Proof.
  unfold mat_is_approx. replace (mnorm2 (madd a (mscale (-1) a))) with 0 by (unfold mnorm2; vsimpl; ring).
  apply fuzzy_zero, mnorm2_nonneg.
Qed.
Lemma mat_approx_sym a b : mat_is_approx a b = mat_is_approx b a.
Proof.
  unfold mat_is_approx. rewrite fuzzy_sym. f_equal. unfold mnorm2. vsimpl. ring.
Qed.
Lemma vec_approx_refl a : vec_is_approx a a = true.
Proof.
  unfold vec_is_approx. replace (norm2 (vsub a a)) with 0 by (unfold norm2; vsimpl; ring).
  apply fuzzy_zero, norm2_nonneg.
Qed.
Lemma vec_approx_sym a b : vec_is_approx a b = vec_is_approx b a.
Proof. unfold vec_is_approx. rewrite fuzzy_sym. f_equal. unfold norm2. vsimpl. ring. Qed.
Lemma tan_approx_refl a : tan_is_approx a a = true.
Proof.
  unfold tan_is_approx.
  replace (tnorm2 (tadd a (tscale (-1) a))) with 0 by (unfold tnorm2, tadd, tscale, norm2; cbn [trot ttrans]; vsimpl; ring).
  apply fuzzy_zero, tnorm2_nonneg.
Qed.
Lemma tan_approx_sym a b : tan_is_approx a b = tan_is_approx b a.
Proof.
  unfold tan_is_approx. rewrite fuzzy_sym. f_equal.
  unfold tnorm2, tadd, tscale, norm2; cbn [trot ttrans]; vsimpl; ring.
Qed.
Lemma frame_eqb_sym a b : frame_eqb a b = frame_eqb b a.
Proof. apply Bool.eq_true_iff_eq. rewrite !frame_eqb_eq. split; congruence. Qed.
Lemma so3_approx_refl a : so3_is_approx a a = true.
Proof. unfold so3_is_approx, so3_is_approx_transform. rewrite mat_approx_refl. apply so3_verify_iff. auto. Qed.
Lemma so3_approx_sym a b : so3_is_approx a b = so3_is_approx b a.
Proof.
  unfold so3_is_approx, so3_is_approx_transform, so3_verify_frames.
  rewrite mat_approx_sym, (frame_eqb_sym (so3_into a)), (frame_eqb_sym (so3_from a)). reflexivity.
Qed.
Lemma se3_approx_refl a : se3_is_approx a a = true.
Proof.
  unfold se3_is_approx, se3_is_approx_transform. rewrite so3_approx_refl, vec_approx_refl. apply se3_verify_iff. auto.
Qed.
Lemma se3_approx_sym a b : se3_is_approx a b = se3_is_approx b a.
Proof.
  unfold se3_is_approx, se3_is_approx_transform, se3_verify_frames.
  rewrite so3_approx_sym, vec_approx_sym, (frame_eqb_sym (se3_into a)), (frame_eqb_sym (se3_from a)). reflexivity.
Qed.
Lemma jl_approx_refl {G T} g t (a : jet_l G T) : (forall x, g x x = true) -> (forall x, t x x = true) ->
  jl_is_approx g t a a = true.
Proof. intros Hg Ht. unfold jl_is_approx. rewrite Hg, !Ht. reflexivity. Qed.
Lemma jl_approx_sym {G T} g t (a b : jet_l G T) : (forall x y, g x y = g y x) -> (forall x y, t x y = t y x) ->
  jl_is_approx g t a b = jl_is_approx g t b a.
Proof.
  intros Hg Ht. unfold jl_is_approx.
  rewrite (Hg (frame_from_ref a)), (Ht (d_frame_from_ref a)), (Ht (d2_frame_from_ref a)). reflexivity.
Qed.
Lemma jr_approx_refl {G T} g t (a : jet_r G T) : (forall x, g x x = true) -> (forall x, t x x = true) ->
  jr_is_approx g t a a = true.
Proof. intros Hg Ht. unfold jr_is_approx. rewrite Hg, !Ht. reflexivity. Qed.
Lemma jr_approx_sym {G T} g t (a b : jet_r G T) : (forall x y, g x y = g y x) -> (forall x y, t x y = t y x) ->
  jr_is_approx g t a b = jr_is_approx g t b a.
Proof.
  intros Hg Ht. unfold jr_is_approx.
  rewrite (Hg (ref_from_frame a)), (Ht (d_ref_from_frame a)), (Ht (d2_ref_from_frame a)). reflexivity.
Qed.
Lemma approx_refl_sym :
  (forall a, so3_is_approx a a = true) /\ (forall a b, so3_is_approx a b = so3_is_approx b a) /\
  (forall a, se3_is_approx a a = true) /\ (forall a b, se3_is_approx a b = se3_is_approx b a) /\
  (forall a, jl_is_approx_so3 a a = true) /\ (forall a b, jl_is_approx_so3 a b = jl_is_approx_so3 b a) /\
  (forall a, jl_is_approx_se3 a a = true) /\ (forall a b, jl_is_approx_se3 a b = jl_is_approx_se3 b a) /\
  (forall a, jr_is_approx_so3 a a = true) /\ (forall a b, jr_is_approx_so3 a b = jr_is_approx_so3 b a) /\
  (forall a, jr_is_approx_se3 a a = true) /\ (forall a b, jr_is_approx_se3 a b = jr_is_approx_se3 b a).
Proof.
  repeat match goal with |- _ /\ _ => split end; intros;
    try apply so3_approx_refl; try apply so3_approx_sym; try apply se3_approx_refl; try apply se3_approx_sym;
    unfold jl_is_approx_so3, jl_is_approx_se3, jr_is_approx_so3, jr_is_approx_se3;
    try (apply jl_approx_refl || apply jl_approx_sym || apply jr_approx_refl || apply jr_approx_sym);
    auto using so3_approx_refl, so3_approx_sym, se3_approx_refl, se3_approx_sym, vec_approx_refl, vec_approx_sym,
      tan_approx_refl, tan_approx_sym.
Qed.

(** Vectors. *)
Lemma vec_approx_iff a b : vec_is_approx a b = true <-> relatively_close a b.
Proof.
  unfold vec_is_approx, relatively_close, distance, precision. rewrite fuzzy_iff.
  rewrite <- !norm_sqr.
  set (d := norm (vsub a b)). set (x := norm a). set (y := norm b).
  assert (Hd : 0 <= d) by apply norm_nonneg. assert (Hx : 0 <= x) by apply norm_nonneg.
  assert (Hy : 0 <= y) by apply norm_nonneg.
  set (e := / 10^12). assert (He : 0 < e) by (unfold e; lra).
  assert (K : forall z, 0 <= z -> (d * d <= e * e * (z * z) <-> d <= e * z)).
  { intros z Hz. replace (e * e * (z * z)) with ((e * z) * (e * z)) by ring.
    assert (0 <= e * z) by (apply Rmult_le_pos; lra). split; intro H'.
    - apply Rsqr_incr_0; unfold Rsqr; assumption.
    - apply Rmult_le_compat; assumption. }
  rewrite <- (K x Hx), <- (K y Hy). unfold Rmin. destruct (Rle_dec (x * x) (y * y)) as [L|L].
  - split; [|tauto]. intro H. split; [exact H|]. apply (Rle_trans _ _ _ H).
    apply Rmult_le_compat_l; [nra|exact L].
  - split; [|tauto]. intro H. split; [|exact H]. apply (Rle_trans _ _ _ H).
    apply Rmult_le_compat_l; [nra|lra].
Qed.
Lemma se3_approx_iff a b : se3_framing a -> se3_framing b ->
  se3_is_approx a b = true <->
    se3_into a = se3_into b /\ se3_from a = se3_from b /\
    so3_is_approx_transform (rotation a) (rotation b) = true /\
    relatively_close (translation a) (translation b).
Proof.
  intros (_ & Ia & Fa) (_ & Ib & Fb).
  unfold se3_is_approx, se3_is_approx_transform, so3_is_approx.
  rewrite !andb_true_iff, so3_verify_iff, se3_verify_iff, vec_approx_iff, Ia, Fa, Ib, Fb. tauto.
Qed.
Lemma se3_approx_transform_frames a b i f i' f' :
  se3_is_approx_transform (SE3 (rotation a) (translation a) i f) (SE3 (rotation b) (translation b) i' f')
  = se3_is_approx_transform a b.
Proof. reflexivity. Qed.
Lemma vzero_norm_iff a : norm a = 0 <-> a = vzero.
Proof. split; [apply norm_zero|intros ->; apply norm_vzero]. Qed.
Lemma close_zero a b : relatively_close a b -> (a = vzero <-> b = vzero).
Proof.
  unfold relatively_close, distance. intros [H1 H2].
  pose proof (norm_nonneg (vsub a b)) as N.
  split; intros ->.
  - rewrite norm_vzero in H1. assert (E : norm (vsub vzero b) = 0) by lra.
    apply norm_zero in E. apply (f_equal vneg) in E. replace b with (vneg (vsub vzero b)) by vring. rewrite E. vring.
  - rewrite norm_vzero in H2. assert (E : norm (vsub a vzero) = 0) by lra.
    apply norm_zero in E. replace a with (vsub a vzero) by vring. exact E.
Qed.
Lemma se3_approx_zero a b : se3_is_approx a b = true -> (translation a = vzero <-> translation b = vzero).
Proof.
  unfold se3_is_approx, se3_is_approx_transform. rewrite !andb_true_iff, vec_approx_iff.
  intros [[_ H] _]. apply close_zero, H.
Qed.
Lemma tan_approx_zero a b : tan_is_approx a b = true -> (a = tzero <-> b = tzero).
Proof.
  assert (Z : forall x, tnorm2 x = 0 -> x = tzero).
  { intros [w v] H. unfold tnorm2 in H. cbn [trot ttrans] in H.
    pose proof (norm2_nonneg w). pose proof (norm2_nonneg v).
    unfold tzero. f_equal; apply norm2_zero; lra. }
  assert (Z0 : tnorm2 tzero = 0) by (unfold tnorm2, tzero, norm2; cbn [trot ttrans]; vsimpl; ring).
  assert (K : forall x, tan_is_approx tzero x = true -> x = tzero).
  { intros x. unfold tan_is_approx. rewrite fuzzy_iff, Z0, Rmin_left by apply tnorm2_nonneg.
    intro H. apply Z. pose proof (tnorm2_nonneg x).
    replace (tnorm2 (tadd tzero (tscale (-1) x))) with (tnorm2 x) in H; [lra|].
    unfold tnorm2, tadd, tscale, tzero, norm2; cbn [trot ttrans]; vsimpl; ring. }
  intro H. split; intros ->; apply K; [exact H|rewrite tan_approx_sym; exact H].
Qed.
Lemma jet_approx_zero a b : jl_is_approx_se3 a b = true ->
  (translation (frame_from_ref a) = vzero <-> translation (frame_from_ref b) = vzero) /\
  (d_frame_from_ref a = tzero <-> d_frame_from_ref b = tzero) /\
  (d2_frame_from_ref a = tzero <-> d2_frame_from_ref b = tzero).
Proof.
  unfold jl_is_approx_se3, jl_is_approx. rewrite !andb_true_iff. intros [[H1 H2] H3].
  split; [apply se3_approx_zero, H1|split; apply tan_approx_zero; assumption].
Qed.
Lemma jet_r_approx_zero a b : jr_is_approx_se3 a b = true ->
  (translation (ref_from_frame a) = vzero <-> translation (ref_from_frame b) = vzero) /\
  (d_ref_from_frame a = tzero <-> d_ref_from_frame b = tzero) /\
  (d2_ref_from_frame a = tzero <-> d2_ref_from_frame b = tzero).
Proof.
  unfold jr_is_approx_se3, jr_is_approx. rewrite !andb_true_iff. intros [[H1 H2] H3].
  split; [apply se3_approx_zero, H1|split; apply tan_approx_zero; assumption].
Qed.

(** Counterexamples. *)
Definition shifted (x : R) : se3 := SE3 (SO3 mid null_frame null_frame) (V3 x 0 0) null_frame null_frame.
Lemma shifted_wf x : se3_wf (shifted x).
Proof. split; [apply rot_mid|]. repeat split; auto. Qed.
Lemma norm_axis x : norm (V3 x 0 0) = Rabs x.
Proof.
  unfold norm, norm2. vsimpl. replace (x * x + 0 * 0 + 0 * 0) with (Rsqr x) by (unfold Rsqr; ring). apply sqrt_Rsqr_abs.
Qed.
Lemma distance_shifted x y : distance (translation (shifted x)) (translation (shifted y)) = Rabs (x - y).
Proof.
  unfold distance, shifted. cbn [translation].
  replace (vsub (V3 x 0 0) (V3 y 0 0)) with (V3 (x - y) 0 0) by (vsimpl; f_equal; ring). apply norm_axis.
Qed.
Lemma shifted_approx x y : se3_is_approx (shifted x) (shifted y) = true <->
  Rabs (x - y) <= precision * Rabs x /\ Rabs (x - y) <= precision * Rabs y.
Proof.
  rewrite se3_approx_iff by apply shifted_wf.
  unfold relatively_close. rewrite distance_shifted. unfold shifted. cbn [translation rotation se3_into se3_from].
  rewrite !norm_axis. unfold so3_is_approx_transform. cbn [rotation_matrix]. rewrite mat_approx_refl. tauto.
Qed.
Lemma se3_tolerance_refuted eps : 0 < eps -> exists a b, se3_wf a /\ se3_wf b /\
  rotation a = rotation b /\ se3_into a = se3_into b /\ se3_from a = se3_from b /\
  distance (translation a) (translation b) < eps /\ se3_is_approx a b = false.
Proof.
  intro H. exists (shifted 0), (shifted (eps / 2)).
  split; [apply shifted_wf|]. split; [apply shifted_wf|]. repeat (split; [reflexivity|]).
  rewrite distance_shifted. split; [unfold Rabs; destruct (Rcase_abs _); lra|].
  destruct (se3_is_approx (shifted 0) (shifted (eps / 2))) eqn:E; [|reflexivity].
  apply shifted_approx in E as [E _]. rewrite Rabs_R0 in E. unfold Rabs in E. destruct (Rcase_abs _); lra.
Qed.
Lemma se3_approx_far d : 0 < d -> exists a b, se3_wf a /\ se3_wf b /\
  distance (translation a) (translation b) = d /\ se3_is_approx a b = true.
Proof.
  intro H. exists (shifted (10^12 * d)), (shifted (10^12 * d + d)).
  split; [apply shifted_wf|]. split; [apply shifted_wf|].
  rewrite distance_shifted, shifted_approx. unfold precision.
  replace (10^12 * d - (10^12 * d + d)) with (- d) by ring. rewrite Rabs_Ropp, !Rabs_right by lra.
  split; [reflexivity|]. split; lra.
Qed.
Lemma shifted_mul x y : se3_mul (shifted x) (shifted y) = Ok (shifted (x + y)).
Proof.
  unfold shifted, se3_mul, so3_mul, so3_of_matrix, se3_make, so3_set_unframed, so3_act, make_frames,
    so3_is_framed, se3_is_framed. cbn. f_equal. f_equal.
  - f_equal. vring.
  - vsimpl. f_equal; ring.
Qed.
Lemma se3_invariance_refuted : exists c a b ca cb, se3_wf a /\ se3_wf b /\ se3_wf c /\
  se3_mul c a = Ok ca /\ se3_mul c b = Ok cb /\ se3_is_approx a b = true /\ se3_is_approx ca cb = false.
Proof.
  exists (shifted (-1)), (shifted 1), (shifted (1 + / 10^13)), (shifted (-1 + 1)), (shifted (-1 + (1 + / 10^13))).
  repeat (split; [apply shifted_wf|]). repeat (split; [apply shifted_mul|]).
  split.
  - apply shifted_approx. unfold precision. replace (1 - (1 + / 10^13)) with (- / 10^13) by ring.
    rewrite Rabs_Ropp, !Rabs_right by lra. lra.
  - destruct (se3_is_approx _ _) eqn:E; [|reflexivity].
    apply shifted_approx in E as [E _]. replace (-1 + 1) with 0 in E by ring. rewrite Rabs_R0 in E.
    unfold Rabs in E. destruct (Rcase_abs _); lra.
Qed.
Definition z_turn (t : R) : so3 := SO3 (angle_axis_matrix t (V3 0 0 1)) null_frame null_frame.
Lemma z_unit : norm2 (V3 0 0 1) = 1.
Proof. unfold norm2. vsimpl. ring. Qed.
Lemma z_turn_wf t : so3_wf (z_turn t).
Proof. split; [apply angle_axis_rot, z_unit|]. split; auto. Qed.
Lemma z_turn_apart s t : 0 <= t - s <= PI -> turn_apart (z_turn s) (z_turn t) (t - s).
Proof.
  intro H. split; [exact H|]. exists (V3 0 0 1). split; [apply z_unit|]. intro v.
  unfold z_turn. cbn [rotation_matrix]. rewrite <- angle_axis_turned by apply z_unit.
  rewrite <- mvec_mmul, angle_axis_add by apply z_unit. do 2 f_equal. ring.
Qed.
Lemma so3_transitive_refuted : exists a b c, so3_wf a /\ so3_wf b /\ so3_wf c /\
  so3_is_approx a b = true /\ so3_is_approx b c = true /\ so3_is_approx a c = false.
Proof.
  assert (P : 3 < PI) by (pose proof PI2_3_2; lra).
  exists (z_turn 0), (z_turn (/ 10^12)), (z_turn (2 * / 10^12)).
  repeat (split; [apply z_turn_wf|]).
  assert (K : forall s t, so3_is_approx (z_turn s) (z_turn t) = so3_is_approx_transform (z_turn s) (z_turn t)).
  { intros. unfold so3_is_approx. cbn. apply Bool.andb_true_r. }
  rewrite !K.
  split; [|split].
  - apply (so3_approx_threshold _ _ (/ 10^12 - 0)); try apply z_turn_wf; [apply z_turn_apart; lra|unfold precision; lra].
  - apply (so3_approx_threshold _ _ (2 * / 10^12 - / 10^12)); try apply z_turn_wf; [apply z_turn_apart; lra|unfold precision; lra].
  - apply (so3_approx_threshold _ _ (2 * / 10^12 - 0)); try apply z_turn_wf; [apply z_turn_apart; lra|unfold precision; lra].
Qed.
Lemma se3_approx_ignores_frames a b : se3_framing a -> se3_framing b ->
  (se3_is_approx_transform a b = true <->
     so3_is_approx_transform (rotation a) (rotation b) = true /\
     relatively_close (translation a) (translation b)) /\
  (se3_is_approx a b = true <->
     se3_into a = se3_into b /\ se3_from a = se3_from b /\ se3_is_approx_transform a b = true).
Proof.
  intros (_ & Ia & Fa) (_ & Ib & Fb).
  assert (E : se3_is_approx_transform a b = true <->
     so3_is_approx_transform (rotation a) (rotation b) = true /\
     relatively_close (translation a) (translation b)).
  { unfold se3_is_approx_transform, so3_is_approx.
    rewrite !andb_true_iff, so3_verify_iff, vec_approx_iff, Ia, Fa, Ib, Fb. tauto. }
  split; [exact E|]. unfold se3_is_approx. rewrite andb_true_iff, se3_verify_iff. tauto.
Qed.

(** ** Two-jets *)
Lemma fuzzy_roots d a b : 0 <= d -> 0 <= a -> 0 <= b -> fuzzy d a b = true <-> sqrt d <= precision * sqrt a /\ sqrt d <= precision * sqrt b.
Proof.
  intros D A B. rewrite fuzzy_iff. unfold precision. set (e := / 10^12). assert (He : 0 < e) by (unfold e; lra).
  assert (K : forall z, 0 <= z -> (d <= e * e * z <-> sqrt d <= e * sqrt z)).
  { intros z Z. assert (E : e * sqrt z = sqrt (e * e * z)) by (rewrite sqrt_mult by nra; rewrite sqrt_square by lra; reflexivity). rewrite E. assert (0 <= e * e * z) by (apply Rmult_le_pos; nra). split; intro H'; [apply sqrt_le_1; assumption|apply sqrt_le_0; assumption]. }
  rewrite <- !K by assumption. assert (P : 0 < e * e) by nra. split.
  - intro H. pose proof (Rmin_l a b). pose proof (Rmin_r a b). split; nra.
  - intros [H1 H2]. unfold Rmin. destruct (Rle_dec a b); assumption.
Qed.
Lemma tan_approx_iff a b : tan_is_approx a b = true <-> tangent_relatively_close a b.
Proof.
  unfold tan_is_approx, tangent_relatively_close. cbv zeta. rewrite fuzzy_roots by apply tnorm2_nonneg. unfold tnorm2, tadd, tscale. cbn [trot ttrans].
  assert (V : forall v w, vadd v (vscale (-1) w) = vsub v w) by (intros; vring). rewrite !V. tauto.
Qed.
Lemma jets_approx :
  (forall a b, jl_is_approx_so3 a b = true <-> so3_is_approx (frame_from_ref a) (frame_from_ref b) = true /\ relatively_close (d_frame_from_ref a) (d_frame_from_ref b) /\ relatively_close (d2_frame_from_ref a) (d2_frame_from_ref b)) /\
  (forall a b, jr_is_approx_so3 a b = true <-> so3_is_approx (ref_from_frame a) (ref_from_frame b) = true /\ relatively_close (d_ref_from_frame a) (d_ref_from_frame b) /\ relatively_close (d2_ref_from_frame a) (d2_ref_from_frame b)) /\
  (forall a b, jl_is_approx_se3 a b = true <-> se3_is_approx (frame_from_ref a) (frame_from_ref b) = true /\ tangent_relatively_close (d_frame_from_ref a) (d_frame_from_ref b) /\ tangent_relatively_close (d2_frame_from_ref a) (d2_frame_from_ref b)) /\
  (forall a b, jr_is_approx_se3 a b = true <-> se3_is_approx (ref_from_frame a) (ref_from_frame b) = true /\ tangent_relatively_close (d_ref_from_frame a) (d_ref_from_frame b) /\ tangent_relatively_close (d2_ref_from_frame a) (d2_ref_from_frame b)).
Proof.
  unfold jl_is_approx_so3, jr_is_approx_so3, jl_is_approx_se3, jr_is_approx_se3, jl_is_approx, jr_is_approx.
  split; [|split; [|split]]; intros a b; rewrite !andb_true_iff, ?vec_approx_iff, ?tan_approx_iff; tauto.
Qed.
