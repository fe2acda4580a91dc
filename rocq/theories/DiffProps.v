(** The derivative of exp and the length of interpolation paths: C25, C26. *)
From Verif Require Import Cpp UuidModel RotSpec GeomModel RotProofs DerivSpec DerivProofs FrameSpec LieSpec ScrewSpec
  FrameProofs CoeffProofs LieProofs DiffProofs.
Local Open Scope R_scope.

(** ** C25 *)
(** Along every differentiable curve of tangent vectors, the exponential moves with the
    left velocity exp_diff(p) p': exactly, or up to 10^-23 |p'| at tiny angles. *)
Theorem c25_exp_diff : forall p g a t w, (forall s, so3_exp (p s) a = Ok (g s)) -> dV p t w -> exists j,
  dM (fun s => rotation_matrix (g s)) t (mmul (cross_matrix j) (rotation_matrix (g t))) /\
  norm (vsub (mvec (so3_exp_diff (p t)) w) j) <= / 10^23 * norm w /\
  (plain_angle (norm2 (p t)) -> mvec (so3_exp_diff (p t)) w = j).
Proof. exact exp_diff_of_exp. Qed.
Print Assumptions c25_exp_diff.

(** The left velocity is determined by the derivative of the matrix. *)
Theorem c25_left_velocity_unique : forall m r j k, is_rotation r ->
  m = mmul (cross_matrix j) r -> m = mmul (cross_matrix k) r -> j = k.
Proof. exact left_velocity_unique. Qed.
Print Assumptions c25_left_velocity_unique.

(** The curve t -> v + t w, at a vector of length 3. *)
Example c25_example :
  let p := fun s => vadd (V3 1 2 2) (vscale s (V3 0 1 0)) in
  dV p 0 (V3 0 1 0) /\ (forall s, exists g, so3_exp (p s) None = Ok g) /\ plain_angle (norm2 (p 0)).
Proof.
  cbv zeta. split; [|split].
  - eapply dV_eq; [apply dV_add; [apply dV_const|apply (dV_scale_l (fun s => s)), dl_id]|]. unfold vzero. vsimpl. f_equal; ring.
  - intro s. eexists. reflexivity.
  - right. rewrite tiny_val. unfold norm2. vsimpl. lra.
Qed.

(** ** C26 *)
(** The screw motion solves its equation of motion, at constant speed. *)
Theorem c26_screw_solves : forall w v, screw w v 0 = vzero /\
  (forall s, dV (screw w v) s (vadd v (cross w (screw w v s)))) /\
  (forall s, norm (vadd v (cross w (screw w v s))) = norm v) /\
  path_length (screw w v) (norm v).
Proof. exact screw_facts. Qed.
Print Assumptions c26_screw_solves.

Theorem c26_arc_length : forall g, se3_wf g ->
  let w := trot (se3_log g) in let v := ttrans (se3_log g) in
  path_length (screw w v) (se3_arc_length g) /\
  forall s h, se3_interp g s = Ok h ->
    norm (vsub (se3_act h vzero) (screw w v s)) <= / 10^23 * Rabs s * se3_arc_length g /\
    (plain_angle (s * s * norm2 w) -> se3_act h vzero = screw w v s).
Proof. exact interp_path. Qed.
Print Assumptions c26_arc_length.

Example c26_example : exists g, se3_exp (T6 (V3 0 0 1) (V3 3 4 0)) None = Ok g /\ se3_wf g /\
  se3_arc_length g = 5.
Proof.
  eexists. split; [reflexivity|]. set (g := SE3 _ _ _ _).
  assert (E : se3_exp (T6 (V3 0 0 1) (V3 3 4 0)) None = Ok g) by reflexivity.
  split; [apply (se3_exp_spec _ _ _ E)|].
  assert (P : norm (trot (T6 (V3 0 0 1) (V3 3 4 0))) < PI).
  { eapply Rle_lt_trans; [|apply three_lt_PI]. apply norm_le_sqr; [lra|]. unfold norm2. cbn [trot]. vsimpl. lra. }
  destruct (se3_log_exp _ _ _ P E) as (_ & _ & X). unfold se3_arc_length. rewrite X.
  - cbn [ttrans]. unfold norm, norm2. vsimpl. replace (3 * 3 + 4 * 4 + 0 * 0) with (5 * 5) by ring.
    apply sqrt_square. lra.
  - right. rewrite tiny_val. unfold norm2. cbn [trot]. vsimpl. lra.
Qed.
