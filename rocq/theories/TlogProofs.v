(** Distances between rotations by their quaternions and by their rotation vectors. *)
From Coq Require Import Psatz.
From Flocq Require Import Core BinarySingleNaN.
From Verif Require Import Cpp FloatModel FloatSpec FloatProofs NrmSpec NrmProofs Vec RotSpec RotProofs CoeffProofs DriftModel DriftSpec DriftProofs DriftProofs2 SpinModel SpinSpec SpinProofs SpinProofs2 TlogModel TlogSpec.
Local Open Scope R_scope.

Definition qdot (w : R) (p : vec3) (w' : R) (p' : vec3) : R := w * w' + dot p p'.
Lemma sq_apart_quaternion w p w' p' : w * w + dot p p = 1 -> w' * w' + dot p' p' = 1 ->
  apart (quaternion_matrix w p) (quaternion_matrix w' p') = sqrt (8 * (1 - qdot w p w' p' * qdot w p w' p')).
Proof.
  intros N N'. unfold apart, size, qdot. f_equal. destruct p as [x y z], p' as [a b c]. rewrite !quaternion_explicit. unfold dot in *. unfold madd, mscale. cbn [m00 m01 m02 m10 m11 m12 m20 m21 m22 vx vy vz] in *.
  assert (E : w * w = 1 - x * x - y * y - z * z) by lra. assert (E' : w' * w' = 1 - a * a - b * b - c * c) by lra. ring [E E'].
Qed.
(** The distance of a unit quaternion to the ray of another, in terms of their rotations. *)
Lemma ray w p w' p' k d : w * w + dot p p = 1 -> w' * w' + dot p' p' = 1 ->
  (k * w - w') ^ 2 + norm2 (vsub (vscale k p) p') <= d ^ 2 -> 0 <= d ->
  apart (quaternion_matrix w p) (quaternion_matrix w' p') <= 283 / 100 * d.
Proof.
  intros N N' D P. rewrite sq_apart_quaternion by assumption. rewrite <- (sqrt_square (283 / 100 * d)) by lra. apply sqrt_le_1_alt.
  assert (E : (k * w - w') ^ 2 + norm2 (vsub (vscale k p) p') = (k - qdot w p w' p') ^ 2 + (1 - qdot w p w' p' * qdot w p w' p')).
  { unfold qdot, norm2. replace (dot (vsub (vscale k p) p') (vsub (vscale k p) p')) with (k * k * dot p p - 2 * k * dot p p' + dot p' p') by (unfold dot, vsub, vscale; cbn [vx vy vz]; ring).
    replace (dot p p) with (1 - w * w) by lra. replace (dot p' p') with (1 - w' * w') by lra. ring. }
  pose proof (pow2_ge_0 (k - qdot w p w' p')). nra.
Qed.
Lemma qdot_bound w p w' p' : w * w + dot p p = 1 -> w' * w' + dot p' p' = 1 -> -1 <= qdot w p w' p' <= 1.
Proof.
  intros N N'. unfold qdot. destruct p as [x y z], p' as [a b c]. unfold dot in *. cbn [vx vy vz] in *.
  pose proof (Rle_0_sqr (w - w')). pose proof (Rle_0_sqr (x - a)). pose proof (Rle_0_sqr (y - b)). pose proof (Rle_0_sqr (z - c)).
  pose proof (Rle_0_sqr (w + w')). pose proof (Rle_0_sqr (x + a)). pose proof (Rle_0_sqr (y + b)). pose proof (Rle_0_sqr (z + c)). unfold Rsqr in *. lra.
Qed.

(** ** Rotation vectors *)
Definition hw (v : vec3) : R := cos (norm v / 2).
Definition hp (v : vec3) : vec3 := vscale (sin (norm v / 2)) (direction v).
Lemma vscale_direction v : vscale (norm v) (direction v) = v.
Proof.
  destruct (Req_dec (norm v) 0) as [Z|Z]; [apply norm_0 in Z; subst v; unfold direction; vring|].
  unfold direction. destruct v as [x y z]. unfold vscale at 1 2. cbn [vx vy vz]. f_equal; field; exact Z.
Qed.
Lemma hp_dot v : dot (hp v) (hp v) = sin (norm v / 2) * sin (norm v / 2).
Proof.
  destruct (Req_dec (norm v) 0) as [Z|Z].
  - unfold hp. rewrite Z. replace (0 / 2) with 0 by field. rewrite sin_0. unfold dot, vscale. cbn [vx vy vz]. ring.
  - unfold hp. assert (N : norm (direction v) = 1) by (apply direction_unit; pose proof (norm_nonneg v); lra).
    assert (Q : dot (direction v) (direction v) = 1) by (change (norm2 (direction v) = 1); rewrite <- norm_sqr, N; ring).
    replace (dot (vscale (sin (norm v / 2)) (direction v)) (vscale (sin (norm v / 2)) (direction v))) with (sin (norm v / 2) * sin (norm v / 2) * dot (direction v) (direction v)) by (unfold dot, vscale; cbn [vx vy vz]; ring).
    rewrite Q. ring.
Qed.
Lemma half_unit v : hw v * hw v + dot (hp v) (hp v) = 1.
Proof. rewrite hp_dot. unfold hw. pose proof (sin2_cos2 (norm v / 2)) as H. unfold Rsqr in H. lra. Qed.
Lemma rotation_by_half v r : rotation_by v r <-> r = quaternion_matrix (hw v) (hp v).
Proof.
  destruct (Req_dec (norm v) 0) as [Z|Z].
  - assert (E : quaternion_matrix (hw v) (hp v) = mid).
    { apply norm_0 in Z. subst v. unfold hw, hp. rewrite norm_zero. replace (0 / 2) with 0 by field. rewrite sin_0, cos_0. unfold quaternion_matrix, quaternion_turn, vscale, vadd, cross, mid. cbn [vx vy vz]. f_equal; ring. }
    rewrite E. unfold rotation_by. split; [intros [[_ H]|[H _]]; [exact H|exfalso; apply H, norm_0, Z]|]. intros ->. left. split; [apply norm_0, Z|reflexivity].
  - assert (N : norm (direction v) = 1) by (apply direction_unit; pose proof (norm_nonneg v); lra).
    unfold hw, hp. rewrite quaternion_turning by exact N. unfold rotation_by. split; [intros [[-> _]|[_ H]]; [exfalso; apply Z, norm_zero|exact H]|].
    intros ->. right. split; [|reflexivity]. intros ->. apply Z, norm_zero.
Qed.
Lemma rotation_by_only v r r' : rotation_by v r -> rotation_by v r' -> r = r'.
Proof. rewrite !rotation_by_half. congruence. Qed.
Lemma rotation_by_rotation v r : rotation_by v r -> is_rotation r.
Proof. rewrite rotation_by_half. intros ->. apply quaternion_rotation, half_unit. Qed.
Lemma direction_cauchy v w : -1 <= dot (direction v) (direction w) <= 1.
Proof.
  assert (G : forall v, norm (direction v) <= 1).
  { intro a. destruct (Req_dec (norm a) 0) as [Z|Z]; [|right; apply direction_unit; pose proof (norm_nonneg a); lra].
    apply norm_0 in Z. subst a. unfold direction. replace (vscale (/ norm vzero) vzero) with vzero by (unfold vzero, vscale; cbn [vx vy vz]; f_equal; ring). rewrite norm_zero. lra. }
  pose proof (cauchy (direction v) (direction w)) as A. pose proof (cauchy (direction v) (vneg (direction w))) as B. rewrite norm_neg in B.
  replace (dot (direction v) (vneg (direction w))) with (- dot (direction v) (direction w)) in B by (unfold dot, vneg; cbn [vx vy vz]; ring).
  pose proof (G v). pose proof (G w). pose proof (norm_nonneg (direction v)). pose proof (norm_nonneg (direction w)).
  assert (norm (direction v) * norm (direction w) <= 1 * 1) by (apply Rmult_le_compat; lra). lra.
Qed.
Lemma half_dot v w : qdot (hw v) (hp v) (hw w) (hp w) =
  cos ((norm v - norm w) / 2) - sin (norm v / 2) * sin (norm w / 2) * (1 - dot (direction v) (direction w)).
Proof.
  unfold qdot, hw, hp. replace ((norm v - norm w) / 2) with (norm v / 2 - norm w / 2) by field. rewrite cos_minus.
  replace (dot (vscale (sin (norm v / 2)) (direction v)) (vscale (sin (norm w / 2)) (direction w))) with (sin (norm v / 2) * sin (norm w / 2) * dot (direction v) (direction w)) by (unfold dot, vscale; cbn [vx vy vz]; ring). ring.
Qed.
Lemma unit_dot v : v <> vzero -> dot (direction v) (direction v) = 1.
Proof.
  intro Z. change (norm2 (direction v) = 1). rewrite <- norm_sqr, direction_unit; [ring|]. pose proof (norm_nonneg v). destruct (Req_dec (norm v) 0) as [E|E]; [exfalso; apply Z, norm_0, E|lra].
Qed.
Lemma split_distance v w : norm2 (vsub v w) = (norm v - norm w) ^ 2 + 2 * norm v * norm w * (1 - dot (direction v) (direction w)).
Proof.
  replace (norm2 (vsub v w)) with (norm2 v + norm2 w - 2 * dot v w) by (unfold norm2, dot, vsub; cbn [vx vy vz]; ring).
  rewrite <- !norm_sqr. replace (dot v w) with (norm v * norm w * dot (direction v) (direction w)); [ring|].
  rewrite <- (vscale_direction v) at 3. rewrite <- (vscale_direction w) at 3. unfold dot, vscale. cbn [vx vy vz]. ring.
Qed.
(** Rotations are no further apart than their vectors (the diameter of the Frobenius norm
    counts each angle's square twice). *)
Lemma exp_lipschitz v w r s : rotation_by v r -> rotation_by w s -> apart r s <= 14143 / 10000 * norm (vsub v w).
Proof.
  rewrite !rotation_by_half. intros -> ->. rewrite sq_apart_quaternion by apply half_unit. pose proof (norm_nonneg (vsub v w)) as P.
  rewrite <- (sqrt_square (14143 / 10000 * norm (vsub v w))) by lra. apply sqrt_le_1_alt.
  pose proof (qdot_bound _ _ _ _ (half_unit v) (half_unit w)) as B. rewrite half_dot in *. set (c := dot (direction v) (direction w)) in *.
  replace (14143 / 10000 * norm (vsub v w) * (14143 / 10000 * norm (vsub v w))) with (14143 / 10000 * (14143 / 10000) * (norm (vsub v w) * norm (vsub v w))) by ring.
  rewrite norm_sqr, split_distance. fold c. pose proof (direction_cauchy v w) as C. fold c in C.
  set (a := norm v) in *. set (b := norm w) in *. assert (A0 : 0 <= a) by apply norm_nonneg. assert (B0 : 0 <= b) by apply norm_nonneg. clearbody c a b.
  pose proof (cos_above ((a - b) / 2)) as CA.
  assert (SS : sin (a / 2) * sin (b / 2) <= a / 2 * (b / 2)).
  { apply Rle_trans with (Rabs (sin (a / 2) * sin (b / 2))); [apply Rle_abs|]. rewrite Rabs_mult. apply Rmult_le_compat; try apply Rabs_pos;
      (eapply Rle_trans; [apply abs_sin|]; rewrite Rabs_right; lra). }
  set (d := cos ((a - b) / 2) - sin (a / 2) * sin (b / 2) * (1 - c)) in *.
  assert (D : 1 - d <= (a - b) ^ 2 / 8 + a * b / 4 * (1 - c)). { unfold d. assert (sin (a / 2) * sin (b / 2) * (1 - c) <= a / 2 * (b / 2) * (1 - c)) by (apply Rmult_le_compat_r; lra). nra. }
  clearbody d. assert (1 - d * d <= 2 * (1 - d)) by nra. pose proof (pow2_ge_0 (a - b)). assert (0 <= a * b * (1 - c)) by (apply Rmult_le_pos; [apply Rmult_le_pos; lra|lra]). lra.
Qed.
Lemma sin_linear x : 0 <= x <= 158 / 100 -> 58 / 100 * x <= sin x.
Proof.
  intros [A B]. destruct (sin_bounds x ltac:(lra)) as [L _]. unfold sin7 in L. eapply Rle_trans; [|exact L].
  assert (x ^ 2 <= 25 / 10) by nra. pose proof (pow2_ge_0 x) as Q. set (y := x ^ 2) in *.
  replace (x - x ^ 3 / 6 + x ^ 5 / 120 - x ^ 7 / 5040) with (x * (1 - y / 6 + y * y / 120 - y * y * y / 5040)) by (unfold y; field).
  rewrite Rmult_comm. apply Rmult_le_compat_l; [exact A|]. clearbody y. assert (0 <= y * y * (1 / 120 - y / 5040)) by (apply Rmult_le_pos; nra). nra.
Qed.
Lemma sin_linear_small x : 0 <= x <= 8 / 10 -> 89 / 100 * x <= sin x.
Proof.
  intros [A B]. destruct (sin_bounds x ltac:(lra)) as [L _]. unfold sin7 in L. eapply Rle_trans; [|exact L].
  assert (x ^ 2 <= 64 / 100) by nra. pose proof (pow2_ge_0 x) as Q. set (y := x ^ 2) in *.
  replace (x - x ^ 3 / 6 + x ^ 5 / 120 - x ^ 7 / 5040) with (x * (1 - y / 6 + y * y / 120 - y * y * y / 5040)) by (unfold y; field).
  rewrite Rmult_comm. apply Rmult_le_compat_l; [exact A|]. clearbody y. assert (0 <= y * y * (1 / 120 - y / 5040)) by (apply Rmult_le_pos; nra). nra.
Qed.
(** Vectors of near rotations are near, away from half turns. *)
Lemma log_expansion v w r s d : rotation_by v r -> rotation_by w s -> norm v <= 3 -> norm w <= 315 / 100 -> apart r s <= d -> d <= / 10 ->
  norm (vsub v w) <= 18 / 10 * d.
Proof.
  rewrite !rotation_by_half. intros -> ->. rewrite sq_apart_quaternion by apply half_unit. intros V W D T.
  pose proof (qdot_bound _ _ _ _ (half_unit v) (half_unit w)) as B. set (k := qdot (hw v) (hp v) (hw w) (hp w)) in *.
  assert (P : 0 <= d) by (eapply Rle_trans; [apply sqrt_pos|exact D]).
  assert (Q : 8 * (1 - k * k) <= d * d). { rewrite <- (sqrt_sqrt (8 * (1 - k * k))) by nra. apply Rmult_le_compat; try apply sqrt_pos; exact D. }
  pose proof (norm_nonneg v) as V0. pose proof (norm_nonneg w) as W0.
  assert (HV : 7 / 100 <= hw v).
  { unfold hw. destruct (cos_bounds (norm v / 2) ltac:(lra)) as [L _]. eapply Rle_trans; [|exact L]. unfold cos6. set (y := norm v / 2) in *. assert (0 <= y <= 15 / 10) by (unfold y; lra). clearbody y.
    assert (Y : 0 <= y * y <= 225 / 100) by nra. replace (1 - y ^ 2 / 2 + y ^ 4 / 24 - y ^ 6 / 720) with (1 - y * y / 2 + y * y * (y * y) / 24 - y * y * (y * y) * (y * y) / 720) by field. set (q := y * y) in *. clearbody q.
    replace (1 - q / 2 + q * q / 24 - q * q * q / 720) with (70 / 1000 + (225 / 100 - q) * (32 / 100) + ((93 / 100 - 32 / 100 * (225 / 100)) - 18 / 100 * q + q * q / 24 - q * q * q / 720)) by field.
    assert (0 <= q * q / 24 - q * q * q / 720 - q * q * (1 / 24 - 225 / 100 / 720)). { replace (q * q / 24 - q * q * q / 720 - q * q * (1 / 24 - 225 / 100 / 720)) with (q * q * (225 / 100 - q) / 720) by field. apply Rmult_le_pos; [apply Rmult_le_pos; nra|lra]. }
    nra. }
  assert (HW : - (1 / 100) <= hw w).
  { unfold hw. destruct (cos_bounds (norm w / 2) ltac:(lra)) as [L _]. eapply Rle_trans; [|exact L]. unfold cos6. set (y := norm w / 2) in *. assert (0 <= y <= 1575 / 1000) by (unfold y; lra). clearbody y.
    assert (Y : 0 <= y * y <= 2481 / 1000) by nra. replace (1 - y ^ 2 / 2 + y ^ 4 / 24 - y ^ 6 / 720) with (1 - y * y / 2 + y * y * (y * y) / 24 - y * y * (y * y) * (y * y) / 720) by field. set (q := y * y) in *. clearbody q.
    assert (0 <= q * q / 24 - q * q * q / 720 - q * q * (1 / 24 - 2481 / 1000 / 720)). { replace (q * q / 24 - q * q * q / 720 - q * q * (1 / 24 - 2481 / 1000 / 720)) with (q * q * (2481 / 1000 - q) / 720) by field. apply Rmult_le_pos; [apply Rmult_le_pos; nra|lra]. }
    nra. }
  assert (K : 0 <= k).
  { destruct (Rle_or_lt 0 k) as [|C]; [assumption|]. exfalso.
    assert (1 + k <= d * d / 8) by nra.
    assert (S : (hw v + hw w) ^ 2 <= 2 + 2 * k).
    { pose proof (half_unit v) as U. pose proof (half_unit w) as U'. unfold k, qdot. set (p := hp v) in *. set (p' := hp w) in *. pose proof (norm2_nonneg (vadd p p')) as N. unfold norm2 in N.
      replace (dot (vadd p p') (vadd p p')) with (dot p p + 2 * dot p p' + dot p' p') in N by (unfold dot, vadd; cbn [vx vy vz]; ring). nra. }
    assert (36 / 10000 <= (hw v + hw w) ^ 2) by nra. nra. }
  assert (O : 1 - k <= d * d / 8) by nra. clear Q D HV HW K B.
  unfold k in O. clear k. rewrite half_dot in O. apply norm_le_sqr; [lra|]. rewrite split_distance. pose proof (direction_cauchy v w) as C. set (c := dot (direction v) (direction w)) in *.
  set (a := norm v) in *. set (b := norm w) in *. clearbody a b c.
  pose proof (sin_linear (a / 2) ltac:(lra)) as SA. pose proof (sin_linear (b / 2) ltac:(lra)) as SB.
  assert (SS : a * b * (841 / 10000) <= sin (a / 2) * sin (b / 2)). { apply Rle_trans with (58 / 100 * (a / 2) * (58 / 100 * (b / 2))); [right; field|apply Rmult_le_compat; lra]. }
  assert (CC : (a - b) ^ 2 * (98 / 1000) <= 1 - cos ((a - b) / 2)).
  { replace ((a - b) / 2) with (2 * ((a - b) / 4)) by field. rewrite cos_2a_sin. set (y := (a - b) / 4).
    assert (Y : (89 / 100 * y) * (89 / 100 * y) <= sin y * sin y).
    { destruct (Rle_or_lt 0 y) as [Y|Y].
      - pose proof (sin_linear_small y ltac:(unfold y in *; lra)). apply Rmult_le_compat; lra.
      - pose proof (sin_linear_small (- y) ltac:(unfold y in *; lra)) as L. rewrite sin_neg in L. replace (89 / 100 * y * (89 / 100 * y)) with (89 / 100 * - y * (89 / 100 * - y)) by ring. replace (sin y * sin y) with (- sin y * - sin y) by ring. apply Rmult_le_compat; lra. }
    replace ((a - b) ^ 2) with (16 * (y * y)) by (unfold y; field). nra. }
  pose proof (cos_bound ((a - b) / 2)) as CB. apply Rabs_le_inv in CB.
  assert (0 <= a * b) by nra. assert (a * b * (841 / 10000) * (1 - c) <= sin (a / 2) * sin (b / 2) * (1 - c)) by (apply Rmult_le_compat_r; lra).
  assert (0 <= a * b * (1 - c)) by (apply Rmult_le_pos; lra). pose proof (pow2_ge_0 (a - b)). nra.
Qed.
