(** The derivative of the exponential, and screw motions. *)
From Coq Require Import Sorted.
From Verif Require Import Cpp UuidModel RotSpec GeomModel RotProofs CoeffProofs DerivSpec DerivProofs
  ScrewSpec FrameSpec LieSpec FrameProofs LieProofs.
Local Open Scope R_scope.

(** ** Turning axis and angle together *)
Lemma dM_angle_axis_both f f' u a t : unit_vec (u t) ->
  derivable_pt_lim f t f' -> dV u t (cross a (u t)) ->
  dM (fun s => angle_axis_matrix (f s) (u s)) t
     (mmul (cross_matrix (vadd (vadd (vscale f' (u t)) (vscale (sin (f t)) (cross a (u t))))
                               (vscale (1 - cos (f t)) (cross (u t) (cross a (u t))))))
           (angle_axis_matrix (f t) (u t))).
Proof.
  intros U D DU. unfold unit_vec, norm2 in U.
  pose proof (sin2_cos2 (f t)) as Q. unfold Rsqr in Q.
  destruct DU as (DX & DY & DZ). destruct (u t) as [x y z] eqn:EU. destruct a as [i j k]. vsimpl.
  assert (X : x * x = 1 - y * y - z * z) by lra.
  assert (S : sin (f t) * sin (f t) = 1 - cos (f t) * cos (f t)) by lra.
  dsplit; unfold angle_axis_matrix, cross_matrix; vsimpl; dl; rewrite EU; cbn [vx vy vz];
    generalize dependent (sin (f t)); generalize dependent (cos (f t)); intros; clear - X S; ring [X S].
Qed.

Lemma normalized_scale v : normalized v = vscale (/ norm v) v.
Proof.
  destruct (vec3_zero_dec v) as [->|N]; [rewrite normalized_zero; symmetry; apply vscale_zero|].
  apply normalized_nonzero, N.
Qed.
Lemma dl_norm p t w : dV p t w -> p t <> vzero ->
  derivable_pt_lim (fun s => norm (p s)) t (dot (p t) w / norm (p t)).
Proof.
  intros D N. apply dl_ext with (f := fun s => sqrt (dot (p s) (p s))); [reflexivity|]. eapply dl_eq.
  - apply dl_sqrt; [apply dl_dot; exact D|]. apply (norm2_pos _ N).
  - cbv beta. change (sqrt (dot (p t) (p t))) with (norm (p t)). pose proof (norm_pos _ N).
    replace (dot w (p t) + dot (p t) w) with (2 * dot (p t) w) by vring. field. lra.
Qed.
Lemma cross_cross_l v w : cross (cross v w) v = vsub (vscale (norm2 v) w) (vscale (dot v w) v).
Proof. vring. Qed.
Lemma dV_normalized p t w : dV p t w -> p t <> vzero ->
  dV (fun s => normalized (p s)) t
     (cross (vscale (/ norm2 (p t)) (cross (p t) w)) (normalized (p t))).
Proof.
  intros D N. apply dV_ext with (p := fun s => vscale (/ norm (p s)) (p s)).
  { intro s. symmetry. apply normalized_scale. }
  pose proof (norm_pos _ N) as P. eapply dV_eq.
  - apply dV_scale; [|exact D].
    apply dl_ext with (f := fun s => 1 / norm (p s)); [intro; unfold Rdiv; ring|].
    apply dl_div; [apply dl_const|apply dl_norm; eassumption|lra].
  - rewrite normalized_scale. rewrite <- norm_sqr.
    assert (X : forall j k a b, cross (vscale j a) (vscale k b) = vscale (j * k) (cross a b)) by (intros; vring).
    rewrite X, cross_cross_l, <- norm_sqr. set (n := norm (p t)) in *. unfold Rsqr.
    generalize (dot (p t) w). intro d. clearbody n. destruct (p t) as [a b c], w as [e f g]. vsimpl.
    f_equal; field; lra.
Qed.

(** ** The exponential along any differentiable curve, away from zero *)
Lemma dM_mexp_nonzero p t w : dV p t w -> p t <> vzero ->
  dM (fun s => mexp (p s)) t (mmul (cross_matrix (screw (p t) w 1)) (mexp (p t))).
Proof.
  intros D N. pose proof (norm_pos _ N) as P. unfold mexp. eapply dM_eq.
  - eapply (dM_angle_axis_both (fun s => norm (p s)) _ (fun s => normalized (p s))).
    + apply normalized_unit, N.
    + apply dl_norm; eassumption.
    + apply (dV_normalized p t w); assumption.
  - f_equal. f_equal. unfold screw. destruct (Req_EM_T (norm (p t)) 0) as [Z|_]; [lra|].
    rewrite Rmult_1_l, normalized_scale.
    assert (X : forall j k a b, cross (vscale j a) (vscale k b) = vscale (j * k) (cross a b)) by (intros; vring).
    rewrite !X, cross_cross_l, cross_sub_r, !cross_scale_r, cross_self, <- norm_sqr.
    set (n := norm (p t)) in *. generalize (sin n) (cos n) (dot (p t) w) (cross (p t) w).
    intros s c d [q0 q1 q2]. clearbody n. destruct (p t) as [a b k], w as [e f g]. vsimpl.
    f_equal; field; lra.
Qed.

(** ** At zero *)
(** A function squeezed by one that vanishes to first order. *)
Lemma dl_squeeze f g t k : 0 <= k -> (forall s, Rabs (f s) <= k * g s) -> (forall s, 0 <= g s) ->
  g t = 0 -> derivable_pt_lim g t 0 -> derivable_pt_lim f t 0.
Proof.
  intros K B G Z D eps He.
  assert (He' : 0 < eps / (k + 1)) by (apply Rdiv_lt_0_compat; lra).
  destruct (D _ He') as (d & Hd). exists d. intros h H0 H1. specialize (Hd h H0 H1).
  assert (F0 : f t = 0).
  { specialize (B t). rewrite Z, Rmult_0_r in B. pose proof (Rabs_pos (f t)).
    destruct (Req_dec (f t) 0) as [E|E]; [exact E|]. pose proof (Rabs_pos_lt _ E). lra. }
  rewrite Z in Hd. rewrite F0. rewrite !Rminus_0_r in *.
  unfold Rdiv in *. rewrite Rabs_mult in *. specialize (B (t + h)).
  rewrite (Rabs_right (g (t + h))) in Hd by (apply Rle_ge, G).
  pose proof (Rabs_pos (/ h)) as I. specialize (G (t + h)). set (i := Rabs (/ h)) in *.
  apply Rle_lt_trans with (k * g (t + h) * i); [apply Rmult_le_compat_r; assumption|].
  apply Rle_lt_trans with ((k + 1) * (g (t + h) * i)).
  { assert (0 <= g (t + h) * i) by (apply Rmult_le_pos; assumption). nra. }
  apply Rlt_le_trans with ((k + 1) * (eps * / (k + 1))); [apply Rmult_lt_compat_l; lra|].
  right. field. lra.
Qed.
Lemma one_minus_cos x : 0 <= 1 - cos x <= x * x / 2.
Proof.
  pose proof (COS_bound x). split; [lra|].
  replace x with (2 * (x / 2)) at 1 by field. rewrite cos_2a_sin.
  assert (S : sin (x / 2) * sin (x / 2) <= x / 2 * (x / 2)).
  { assert (A : forall y, 0 <= y -> sin y * sin y <= y * y).
    { intros y Py. destruct (Req_dec y 0) as [->|Ny]; [rewrite sin_0; lra|].
      assert (sin y < y) by (apply sin_lt_x; lra). pose proof (SIN_bound y).
      destruct (Rle_dec 0 (sin y)); [nra|].
      destruct (Rle_dec y PI) as [LP|LP].
      - pose proof (sin_ge_0 y Py LP). lra.
      - pose proof three_lt_PI. nra. }
    destruct (Rle_dec 0 (x / 2)) as [L|L]; [apply A, L|].
    specialize (A (- (x / 2)) ltac:(lra)). rewrite sin_neg in A. nra. }
  lra.
Qed.
Lemma minus_sin x : 0 <= x -> Rabs (sin x - x) <= 2 * (x * x).
Proof.
  intro P. destruct (Rle_dec x 1) as [L|L].
  - pose proof (sin_bounds x ltac:(lra)) as [A B]. unfold sin7 in *.
    assert (U : x^3 <= x^2 /\ 0 <= x^3 /\ 0 <= x^5 <= x^2 /\ 0 <= x^7 <= x^2 /\ 0 <= x^9 <= x^2).
    { assert (H : forall n, 0 <= x^n * x^2 <= x^2).
      { intro n. assert (0 <= x^n <= 1) by (split; [apply pow_le, P|rewrite <- (pow1 n); apply pow_incr; lra]).
        assert (0 <= x^2) by (apply pow_le, P). nra. }
      pose proof (H 1%nat) as H1. pose proof (H 3%nat) as H3. pose proof (H 5%nat) as H5. pose proof (H 7%nat) as H7.
      replace (x^1 * x^2) with (x^3) in H1 by ring. replace (x^3 * x^2) with (x^5) in H3 by ring.
      replace (x^5 * x^2) with (x^7) in H5 by ring. replace (x^7 * x^2) with (x^9) in H7 by ring. lra. }
    replace (x * x) with (x^2) by ring. apply Rabs_le. lra.
  - pose proof (SIN_bound x). apply Rabs_le. nra.
Qed.
Lemma coord_le_norm v : Rabs (vx v) <= norm v /\ Rabs (vy v) <= norm v /\ Rabs (vz v) <= norm v.
Proof.
  pose proof (norm_nonneg v) as N. pose proof (norm_sqr v) as Q. unfold norm2 in Q.
  set (n := norm v) in *. clearbody n. destruct v as [x y z]. vsimpl.
  repeat split; apply Rabs_le; nra.
Qed.
(** [mexp v - I - [v]] is of second order. *)
Lemma mexp_first_order v x : Rabs (norm x) <= 1 ->
  norm (vsub (mvec (mexp v) x) (vadd x (cross v x))) <= 3 * norm2 v.
Proof.
  intro X. rewrite Rabs_right in X by (apply Rle_ge, norm_nonneg).
  destruct (vec3_zero_dec v) as [->|N].
  { rewrite mexp_zero, mvec_1. replace (vsub x (vadd x (cross vzero x))) with vzero by vring.
    rewrite norm_vzero. pose proof (norm2_nonneg vzero). lra. }
  pose proof (norm_pos _ N) as P.
  rewrite (mexp_split v x (sin (norm v) / norm v) ((1 - cos (norm v)) / (norm v * norm v))) by (field; lra).
  set (n := norm v) in *.
  replace (vsub _ _) with (vadd (vscale (sin n - n) (vscale (/ n) (cross v x)))
                                (vscale (1 - cos n) (vscale (/ (n * n)) (cross v (cross v x))))).
  2:{ generalize (sin n) (cos n). intros s c. generalize (cross v (cross v x)) (cross v x).
      intros [y0 y1 y2] [z0 z1 z2]. clearbody n. destruct v, x. vsimpl. f_equal; field; lra. }
  pose proof (norm_cross_le v x) as C1. pose proof (norm_cross_le v (cross v x)) as C2. fold n in C1, C2.
  eapply Rle_trans; [apply (norm_comb2 _ _ _ _ 1)|].
  - rewrite norm_scale, Rabs_right by (apply Rle_ge, Rlt_le, Rinv_0_lt_compat, P).
    apply Rmult_le_reg_l with n; [exact P|]. rewrite <- Rmult_assoc, Rinv_r, Rmult_1_l by lra. nra.
  - assert (PP : 0 < n * n) by nra.
    rewrite norm_scale, Rabs_right by (apply Rle_ge, Rlt_le, Rinv_0_lt_compat, PP).
    apply Rmult_le_reg_l with (n * n); [exact PP|]. rewrite <- Rmult_assoc, Rinv_r, Rmult_1_l by lra. nra.
  - rewrite <- norm_sqr. fold n. pose proof (minus_sin n ltac:(lra)) as S.
    pose proof (one_minus_cos n) as C. rewrite (Rabs_right (1 - cos n)) by lra. lra.
Qed.
Lemma dM_mexp_zero p t w : dV p t w -> p t = vzero ->
  dM (fun s => mexp (p s)) t (cross_matrix w).
Proof.
  intros D Z.
  assert (Q : derivable_pt_lim (fun s => norm2 (p s)) t 0).
  { eapply dl_eq; [apply dl_dot; exact D|]. rewrite Z. vring. }
  assert (B : forall (e : vec3) s, Rabs (norm e) <= 1 ->
    let r := vsub (mvec (mexp (p s)) e) (vadd e (cross (p s) e)) in
    Rabs (vx r) <= 3 * norm2 (p s) /\ Rabs (vy r) <= 3 * norm2 (p s) /\ Rabs (vz r) <= 3 * norm2 (p s)).
  { intros e s He r. pose proof (mexp_first_order (p s) e He) as F. fold r in F.
    pose proof (coord_le_norm r). lra. }
  assert (U : forall a b c, a * a + b * b + c * c = 1 -> Rabs (norm (V3 a b c)) <= 1).
  { intros a b c E. unfold norm, norm2. vsimpl. rewrite E, sqrt_1, Rabs_R1. lra. }
  pose proof (fun s => B (V3 1 0 0) s (U 1 0 0 ltac:(ring))) as B0.
  pose proof (fun s => B (V3 0 1 0) s (U 0 1 0 ltac:(ring))) as B1.
  pose proof (fun s => B (V3 0 0 1) s (U 0 0 1 ltac:(ring))) as B2. clear B U.
  assert (G : forall f, (forall s, Rabs (f s) <= 3 * norm2 (p s)) -> derivable_pt_lim f t 0).
  { intros f F. apply (dl_squeeze f (fun s => norm2 (p s)) t 3); try assumption; try lra.
    - intro s. apply norm2_nonneg.
    - rewrite Z. unfold norm2. vsimpl. ring. }
  assert (X0 := G _ (fun s => proj1 (B0 s))). assert (Y0 := G _ (fun s => proj1 (proj2 (B0 s)))).
  assert (Z0 := G _ (fun s => proj2 (proj2 (B0 s)))).
  assert (X1 := G _ (fun s => proj1 (B1 s))). assert (Y1 := G _ (fun s => proj1 (proj2 (B1 s)))).
  assert (Z1 := G _ (fun s => proj2 (proj2 (B1 s)))).
  assert (X2 := G _ (fun s => proj1 (B2 s))). assert (Y2 := G _ (fun s => proj1 (proj2 (B2 s)))).
  assert (Z2 := G _ (fun s => proj2 (proj2 (B2 s)))). clear B0 B1 B2 G Q.
  assert (K : forall (f r q : R -> R) (c c' l : R), (forall s, f s = r s + (c + q s)) ->
     derivable_pt_lim r t 0 -> derivable_pt_lim q t l -> l = c' -> derivable_pt_lim f t c').
  { intros f r q c c' l E Dr Dq <-. apply dl_ext with (f := fun s => r s + (c + q s)); [intro; symmetry; apply E|].
    dl. ring. }
  destruct D as (DX & DY & DZ).
  assert (NX := dl_opp _ _ _ DX). assert (NY := dl_opp _ _ _ DY). assert (NZ := dl_opp _ _ _ DZ).
  pose proof (dl_const 0 t) as D0.
  unfold dM, cross_matrix. cbn [m00 m01 m02 m10 m11 m12 m20 m21 m22].
  split; [split; [|split]|split; split; [|split| |split]].
  - apply (K _ _ (fun _ => 0) 1 _ 0) with (2 := X0) (3 := D0); [|reflexivity]. intro s. vsimpl. ring.
  - apply (K _ _ (fun s => - vz (p s)) 0 _ (- vz w)) with (2 := X1) (3 := NZ); [|reflexivity]. intro s. vsimpl. ring.
  - apply (K _ _ (fun s => vy (p s)) 0 _ (vy w)) with (2 := X2) (3 := DY); [|reflexivity]. intro s. vsimpl. ring.
  - apply (K _ _ (fun s => vz (p s)) 0 _ (vz w)) with (2 := Y0) (3 := DZ); [|reflexivity]. intro s. vsimpl. ring.
  - apply (K _ _ (fun _ => 0) 1 _ 0) with (2 := Y1) (3 := D0); [|reflexivity]. intro s. vsimpl. ring.
  - apply (K _ _ (fun s => - vx (p s)) 0 _ (- vx w)) with (2 := Y2) (3 := NX); [|reflexivity]. intro s. vsimpl. ring.
  - apply (K _ _ (fun s => - vy (p s)) 0 _ (- vy w)) with (2 := Z0) (3 := NY); [|reflexivity]. intro s. vsimpl. ring.
  - apply (K _ _ (fun s => vx (p s)) 0 _ (vx w)) with (2 := Z1) (3 := DX); [|reflexivity]. intro s. vsimpl. ring.
  - apply (K _ _ (fun _ => 0) 1 _ 0) with (2 := Z2) (3 := D0); [|reflexivity]. intro s. vsimpl. ring.
Qed.
Lemma screw_zero_w v s : screw vzero v s = vscale s v.
Proof. unfold screw. destruct (Req_EM_T (norm vzero) 0) as [_|N]; [reflexivity|]. elim N. apply norm_vzero. Qed.
Lemma dM_mexp p t w : dV p t w ->
  dM (fun s => mexp (p s)) t (mmul (cross_matrix (screw (p t) w 1)) (mexp (p t))).
Proof.
  intro D. destruct (vec3_zero_dec (p t)) as [Z|N]; [|apply dM_mexp_nonzero; assumption].
  rewrite Z, screw_zero_w, vscale_1, mexp_zero, mmul_1_r. apply dM_mexp_zero; assumption.
Qed.

(** ** Screw motions *)
Lemma screw_deriv w v s : dV (screw w v) s (mvec (mexp (vscale s w)) v).
Proof.
  unfold screw. destruct (Req_EM_T (norm w) 0) as [Z|N].
  - apply norm_zero in Z. subst w. rewrite vscale_zero, mexp_zero, mvec_1.
    eapply dV_eq; [apply (dV_scale_l (fun s => s)); apply dl_id|]. apply vscale_1.
  - pose proof (norm_nonneg w) as P. destruct (vec3_polar w) as (u & U & E). set (n := norm w) in *. clearbody n. subst w.
    rewrite vscale_vscale, mexp_unit, angle_axis_split by exact U.
    unfold unit_vec, norm2 in U. destruct u as [x y z], v as [i j k]. unfold cross_matrix. vsimpl.
    assert (X : x * x = 1 - y * y - z * z) by lra.
    unfold dV. cbn [vx vy vz]. 
    repeat match goal with |- _ /\ _ => split end; unfold Rdiv; (dl; [field [X]; exact N]).
Qed.
Lemma screw_ode w v s : mvec (mexp (vscale s w)) v = vadd v (cross w (screw w v s)).
Proof.
  unfold screw. destruct (Req_EM_T (norm w) 0) as [Z|N].
  - apply norm_zero in Z. subst w. rewrite vscale_zero, mexp_zero, mvec_1. vring.
  - destruct (vec3_polar w) as (u & U & E). set (n := norm w) in *. clearbody n. subst w.
    rewrite (vscale_vscale s n u), mexp_unit, angle_axis_split by exact U.
    unfold unit_vec, norm2 in U. destruct u as [x y z], v as [i j k]. unfold cross_matrix. vsimpl.
    assert (X : x * x = 1 - y * y - z * z) by lra.
    f_equal; field [X]; exact N.
Qed.
Lemma screw_solves w v : screw w v 0 = vzero /\
  forall s, dV (screw w v) s (vadd v (cross w (screw w v s))).
Proof. split; [apply screw_zero|]. intro s. rewrite <- screw_ode. apply screw_deriv. Qed.

Lemma screw_chord w v s h : norm (vsub (screw w v (s + h)) (screw w v s)) = norm (screw w v h).
Proof.
  rewrite screw_add. replace (vsub _ _) with (mvec (mexp (vscale s w)) (screw w v h)).
  - apply rot_norm, mexp_rot.
  - generalize (mvec (mexp (vscale s w)) (screw w v h)) (screw w v s). intros. vring.
Qed.
Lemma screw_bound w v h : 0 <= h -> norm (screw w v h) <= h * norm v.
Proof.
  intro Ph. destruct (Req_dec h 0) as [->|Nh]; [rewrite screw_zero, norm_vzero; lra|].
  set (e := screw w v h). set (f := fun x => dot (screw w v x) e).
  assert (D : forall x, derivable_pt_lim f x (dot (mvec (mexp (vscale x w)) v) e)).
  { intro x. eapply dl_eq; [apply dl_dot; [apply screw_deriv|apply dV_const]|].
    generalize (mvec (mexp (vscale x w)) v) (screw w v x). intros. vring. }
  destruct (MVT_cor2 f (fun x => dot (mvec (mexp (vscale x w)) v) e) 0 h ltac:(lra) (fun c _ => D c))
    as (c & E & _).
  unfold f in E. rewrite screw_zero in E. fold e in E.
  replace (dot vzero e) with 0 in E by vring. change (dot e e) with (norm2 e) in E.
  rewrite <- norm_sqr in E. pose proof (cauchy (mvec (mexp (vscale c w)) v) e) as C.
  rewrite rot_norm in C by apply mexp_rot.
  pose proof (norm_nonneg e) as Ne. pose proof (norm_nonneg v) as Nv.
  destruct (Req_dec (norm e) 0) as [Z|NZ]; [rewrite Z; nra|].
  apply Rmult_le_reg_r with (norm e); [lra|]. nra.
Qed.
Lemma chords_upper w v l : forall s, Sorted Rle (s :: l) ->
  chords (screw w v) s l <= (last l s - s) * norm v.
Proof.
  induction l as [|t l IH]; intros s S; cbn [chords].
  - cbn. pose proof (norm_nonneg v). lra.
  - inversion S as [|a b S1 H1]; subst. inversion H1 as [|a b L]; subst.
    replace t with (s + (t - s)) at 1 by ring. rewrite screw_chord.
    pose proof (screw_bound w v (t - s) ltac:(lra)) as B. specialize (IH t S1).
    replace (last (t :: l) s) with (last l t) by (apply last_cons). lra.
Qed.
Definition even_times (n k m : nat) : list R := map (fun i => INR i / INR n) (seq (S k) m).
Lemma even_sorted n m : (0 < n)%nat -> forall k, Sorted Rle (INR k / INR n :: even_times n k m).
Proof.
  intro Pn. assert (P : 0 < / INR n) by (apply Rinv_0_lt_compat, lt_0_INR, Pn).
  induction m as [|m IH]; intro k; cbn [even_times seq map].
  - constructor; constructor.
  - constructor; [apply IH|]. constructor. unfold Rdiv. apply Rmult_le_compat_r; [lra|].
    rewrite S_INR. lra.
Qed.
Lemma even_last n m : forall k d, (0 < m)%nat -> last (even_times n k m) d = INR (k + m) / INR n.
Proof.
  induction m as [|m IH]; intros k d Pm; [lia|]. destruct m as [|m].
  - cbn. rewrite Nat.add_1_r. reflexivity.
  - change (even_times n k (S (S m))) with (INR (S k) / INR n :: even_times n (S k) (S m)).
    rewrite <- last_cons with (d := d). rewrite IH by lia. replace (S k + S m)%nat with (k + S (S m))%nat by lia. reflexivity.
Qed.
Lemma even_chords w v n m : (0 < n)%nat -> forall k,
  chords (screw w v) (INR k / INR n) (even_times n k m) = INR m * norm (screw w v (/ INR n)).
Proof.
  intro Pn. induction m as [|m IH]; intro k; [cbn; ring|].
  change (even_times n k (S m)) with (INR (S k) / INR n :: even_times n (S k) m).
  cbn [chords]. rewrite IH.
  replace (INR (S k) / INR n) with (INR k / INR n + / INR n)
    by (rewrite S_INR; field; apply not_0_INR; lia).
  rewrite screw_chord, (S_INR m). ring.
Qed.
Lemma screw_length w v : path_length (screw w v) (norm v).
Proof.
  split.
  - intros x (l & [S L] & ->). pose proof (chords_upper w v l 0 S) as C. rewrite L in C. lra.
  - intros b B. apply Rnot_lt_le. intro LT.
    assert (EV : forall n, (0 < n)%nat -> INR n * norm (screw w v (/ INR n)) <= b).
    { intros n Pn. apply B. exists (even_times n 0 n).
      pose proof (even_sorted n n Pn 0) as S. pose proof (even_chords w v n n Pn 0) as C.
      change (INR 0) with 0 in S, C. unfold Rdiv in S, C. rewrite Rmult_0_l in S, C.
      split; [split; [exact S|]|symmetry; exact C].
      rewrite even_last by exact Pn. cbn [plus]. field. apply not_0_INR. lia. }
    set (eps := (norm v - b) / 4). assert (He : 0 < eps) by (unfold eps; lra).
    destruct (screw_deriv w v 0) as (DX & DY & DZ). rewrite vscale_0, mexp_zero, mvec_1 in DX, DY, DZ.
    destruct (DX _ He) as (d1 & H1). destruct (DY _ He) as (d2 & H2). destruct (DZ _ He) as (d3 & H3).
    assert (DD : 0 < Rmin d1 (Rmin d2 d3)) by (repeat apply Rmin_pos; apply cond_pos).
    destruct (archimed_cor1 _ DD) as (n & Hn & Pn). specialize (EV n Pn).
    assert (NP : 0 < INR n) by (apply lt_0_INR, Pn). assert (IP : 0 < / INR n) by (apply Rinv_0_lt_compat, NP).
    assert (M1 := Rmin_l d1 (Rmin d2 d3)). assert (M2 := Rmin_r d1 (Rmin d2 d3)).
    assert (M3 := Rmin_l d2 d3). assert (M4 := Rmin_r d2 d3).
    assert (AB : Rabs (/ INR n) = / INR n) by (apply Rabs_right; lra).
    specialize (H1 (/ INR n) ltac:(lra) ltac:(lra)). specialize (H2 (/ INR n) ltac:(lra) ltac:(lra)).
    specialize (H3 (/ INR n) ltac:(lra) ltac:(lra)).
    rewrite Rplus_0_l, screw_zero in H1, H2, H3. unfold vzero in H1, H2, H3. cbn [vx vy vz] in H1, H2, H3.
    rewrite Rminus_0_r in H1, H2, H3. unfold Rdiv in H1, H2, H3. rewrite Rinv_inv in H1, H2, H3.
    rewrite <- (Rabs_right (INR n)) in EV at 1 by lra. rewrite <- norm_scale in EV.
    set (q := screw w v (/ INR n)) in *. set (r := vscale (INR n) q) in *.
    assert (T : norm v <= norm r + norm (vsub v r)).
    { replace v with (vadd r (vsub v r)) at 1 by (clearbody r; vring). apply norm_triangle. }
    assert (Q : norm (vsub v r) <= 2 * eps).
    { apply norm_le_sqr; [lra|]. unfold norm2, r. destruct v as [v0 v1 v2], q as [q0 q1 q2]. vsimpl.
      apply Rabs_def2 in H1, H2, H3. 
      assert (SQ : forall x y, y - x < eps -> - eps < y - x -> (x - y) * (x - y) <= eps * eps) by (intros; nra).
      pose proof (SQ v0 (q0 * INR n) (proj1 H1) (proj2 H1)). pose proof (SQ v1 (q1 * INR n) (proj1 H2) (proj2 H2)).
      pose proof (SQ v2 (q2 * INR n) (proj1 H3) (proj2 H3)).
      rewrite !(Rmult_comm (INR n)). nra. }
    unfold eps in Q. lra.
Qed.

(** ** exp_diff and arc_length *)
Lemma exp_diff_Vmap v w : mvec (so3_exp_diff v) w = Vmap v w.
Proof.
  unfold so3_exp_diff, Vmap. generalize (derivative_of_exp_so3 (norm2 v)). intro k.
  unfold cross_matrix. vring.
Qed.
Lemma exp_diff_derivative p t w : dV p t w -> exists j,
  dM (fun s => mexp (p s)) t (mmul (cross_matrix j) (mexp (p t))) /\
  norm (vsub (mvec (so3_exp_diff (p t)) w) j) <= / 10^23 * norm w /\
  (plain_angle (norm2 (p t)) -> mvec (so3_exp_diff (p t)) w = j).
Proof.
  intro D. exists (screw (p t) w 1). split; [apply dM_mexp, D|]. rewrite exp_diff_Vmap.
  pose proof (Vmap_screw_err (p t) w 1) as E. pose proof (Vmap_screw (p t) w 1) as X.
  rewrite !vscale_1 in E, X. split; [exact E|exact X].
Qed.
Lemma arc_length_spec g : se3_wf g -> exists path,
  path_length path (se3_arc_length g) /\
  (forall s, dV path s (mvec (mexp (vscale s (trot (se3_log g)))) (ttrans (se3_log g)))) /\
  (forall s, norm (mvec (mexp (vscale s (trot (se3_log g)))) (ttrans (se3_log g))) = se3_arc_length g) /\
  forall s h, se3_interp g s = Ok h ->
    norm (vsub (translation h) (path s)) <= / 10^23 * Rabs s * se3_arc_length g /\
    (plain_angle (s * s * norm2 (trot (se3_log g))) -> translation h = path s).
Proof.
  intro W. exists (screw (trot (se3_log g)) (ttrans (se3_log g))).
  split; [apply screw_length|]. split; [intro; apply screw_deriv|].
  split; [intro; apply rot_norm, mexp_rot|].
  intros s h E. destruct (se3_interp_screw g s h W E) as (_ & _ & _ & B & X). split; assumption.
Qed.

(** ** Statements for the property file *)
Lemma exp_diff_of_exp p g a t w : (forall s, so3_exp (p s) a = Ok (g s)) -> dV p t w -> exists j,
  dM (fun s => rotation_matrix (g s)) t (mmul (cross_matrix j) (rotation_matrix (g t))) /\
  norm (vsub (mvec (so3_exp_diff (p t)) w) j) <= / 10^23 * norm w /\
  (plain_angle (norm2 (p t)) -> mvec (so3_exp_diff (p t)) w = j).
Proof.
  intros E D. destruct (exp_diff_derivative p t w D) as (j & H & B). exists j. split; [|exact B].
  assert (M : forall s, rotation_matrix (g s) = mexp (p s)) by (intro s; apply (so3_exp_spec _ _ _ (E s))).
  rewrite M. eapply dM_ext; [|exact H]. intro s. symmetry. apply M.
Qed.
(** The derivative determines the vector [j]. *)
Lemma left_velocity_unique m r j k : is_rotation r ->
  m = mmul (cross_matrix j) r -> m = mmul (cross_matrix k) r -> j = k.
Proof.
  intros H E1 E2. assert (X : cross_matrix j = cross_matrix k).
  { rewrite <- (mmul_1_r (cross_matrix j)), <- (mmul_1_r (cross_matrix k)).
    rewrite <- (rot_mtrans_r r H), !mmul_assoc, <- E1, <- E2. reflexivity. }
  destruct j, k. unfold cross_matrix in X. cbn in X. injection X. intros. f_equal; lra.
Qed.
Lemma screw_facts w v : screw w v 0 = vzero /\
  (forall s, dV (screw w v) s (vadd v (cross w (screw w v s)))) /\
  (forall s, norm (vadd v (cross w (screw w v s))) = norm v) /\
  path_length (screw w v) (norm v).
Proof.
  destruct (screw_solves w v) as [Z D]. split; [exact Z|]. split; [exact D|].
  split; [|apply screw_length]. intro s. rewrite <- screw_ode. apply rot_norm, mexp_rot.
Qed.
Lemma interp_path g : se3_wf g ->
  let w := trot (se3_log g) in let v := ttrans (se3_log g) in
  path_length (screw w v) (se3_arc_length g) /\
  forall s h, se3_interp g s = Ok h ->
    norm (vsub (se3_act h vzero) (screw w v s)) <= / 10^23 * Rabs s * se3_arc_length g /\
    (plain_angle (s * s * norm2 w) -> se3_act h vzero = screw w v s).
Proof.
  intro W. cbv zeta. split; [apply screw_length|]. intros s h E.
  assert (Z : se3_act h vzero = translation h).
  { unfold se3_act, so3_act. rewrite mvec_zero, vadd_0_l. reflexivity. }
  destruct (se3_interp_screw g s h W E) as (_ & _ & _ & B & X). rewrite Z. split; assumption.
Qed.
