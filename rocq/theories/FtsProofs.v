(** Errors of composing two-jets of rotations. *)
From Coq Require Import Reals Lra Lia Psatz.
From Flocq Require Import Core BinarySingleNaN.
From Verif Require Import Cpp FloatModel FloatSpec NrmSpec NrmProofs Vec RotSpec RotProofs CoeffProofs DriftModel DriftSpec DriftProofs SpinModel SpinSpec SpinProofs2 TwistModel TwistProofs2 TlogModel TlogProofs TlogProofs5 SlogProofs4 QfModel QfSpec QfProofs FtsModel FtsSpec.
Local Open Scope R_scope.

(** ** Rounding *)
Lemma fscale_near k v : finite k -> vfinite v -> Rabs (val k) <= 2 ^ 10 -> norm (vval v) <= 2 ^ 900 ->
  vfinite (fscale k v) /\ norm (vsub (vval (fscale k v)) (vscale (val k) (vval v))) <= u * Rabs (val k) * norm (vval v) + 2 * h.
Proof.
  intros F (X & Y & Z) B N. destruct (entry_norm (vval v)) as (Bx & By & Bz). cbn [vval vx vy vz] in Bx, By, Bz. pose proof u_pos as Up. pose proof h_pos as Hp.
  assert (K : forall x, Rabs (val x) <= norm (vval v) -> Rabs (val k * val x) <= 2 ^ 1000).
  { intros x Bx'. rewrite Rabs_mult. apply Rle_trans with (2 ^ 10 * 2 ^ 900); [apply Rmult_le_compat; try apply Rabs_pos; lra|]. rewrite <- pow_add. apply Rle_pow; [lra|lia]. }
  destruct (mul_error k (fx v) F X (K _ Bx)) as [G1 D1]. destruct (mul_error k (fy v) F Y (K _ By)) as [G2 D2]. destruct (mul_error k (fz v) F Z (K _ Bz)) as [G3 D3].
  split; [repeat split; assumption|].
  apply Rle_trans with (norm (vadd (vscale (u * Rabs (val k)) (vabs (vval v))) (vscale h (V3 1 1 1)))).
  - apply norm_mono; unfold fscale, vadd, vsub, vscale, vabs, vval; cbn [vx vy vz fx fy fz]; rewrite Rmult_1_r, Rmult_assoc, <- Rabs_mult; assumption.
  - eapply Rle_trans; [apply norm_triangle|]. rewrite !norm_scale, norm_vabs.
    assert (norm (V3 1 1 1) <= 2). { unfold norm. rewrite <- (sqrt_square 2) by lra. apply sqrt_le_1; unfold norm2, dot; cbn [vx vy vz]; lra. }
    assert (0 <= u * Rabs (val k)) by (apply Rmult_le_pos; [lra|apply Rabs_pos]). rewrite (Rabs_right (u * Rabs (val k))), (Rabs_right h) by lra. assert (h * norm (V3 1 1 1) <= h * 2) by (apply Rmult_le_compat_l; lra). lra.
Qed.
Lemma product_near a r e b q d c : stands_for e (a, r) -> stands_for d (b, q) -> e <= / 50 -> d <= / 50 -> fmmul a b c ->
  stands_for (e + d + e * d + 11 * u) (c, mmul r q).
Proof.
  intros (Fa & Ra & Da) (Fb & Rb & Db) He Hd M. cbn [fst snd] in *. pose proof u_pos as Up. pose proof h_small_u as Hs.
  pose proof (size_apart (mval a) r) as Sa. rewrite (size_rot r Ra) in Sa. pose proof (size_apart (mval b) q) as Sb. rewrite (size_rot q Rb) in Sb. pose proof sqrt3_le.
  assert (P : forall m, 0 <= size m) by (intro; apply sqrt_pos).
  destruct (fmmul_error a b c Fa Fb ltac:(lra) ltac:(lra) M) as [Fc D]. split; [exact Fc|]. split; [apply rot_mmul; assumption|]. cbn [fst snd].
  pose proof (apart_mmul (mval a) r (mval b) q Ra Rb) as A. pose proof (apart_triangle (mval c) (mmul (mval a) (mval b)) (mmul r q)) as T.
  pose proof (apart_pos (mval a) r) as A0. pose proof (apart_pos (mval b) q) as B0. assert (apart (mval a) r * apart (mval b) q <= e * d) by (apply Rmult_le_compat; assumption).
  assert (SS : size (mval a) * size (mval b) <= 17521 / 10000 * (17521 / 10000)) by (apply Rmult_le_compat; [apply P|apply P|lra|lra]).
  assert (301 / 100 * u * (size (mval a) * size (mval b)) <= 301 / 100 * u * (17521 / 10000 * (17521 / 10000))) by (apply Rmult_le_compat_l; lra). lra.
Qed.

(** ** The bookkeeping: errors are measured in units of [X], speeds in units of [K] *)
Definition jet_near (X K a b p c q : R) (j : fjet) (x : state) : Prop :=
  jet_within (a * X) (b * (X * K)) (c * (X * (K * K))) j x /\ norm (vel x) <= p * K /\ norm (acc x) <= q * (K * K).
Lemma rotated_near m r A v w0 D d w : stands_for A (m, r) -> A <= 1 / 9 -> vfinite v -> norm (vsub (vval v) w0) <= d -> norm w0 <= D -> D + d <= 2 ^ 900 -> fmvec m v w ->
  vfinite w /\ norm (vsub (vval w) (mvec r w0)) <= (A + 6 * u) * (D + d) + 7 * h + d /\ norm (mvec r w0) <= D.
Proof.
  intros (Fm & R & E) HA Fv N NW B M. cbn [fst snd] in *. pose proof u_pos. assert (P9 : 2 ^ 900 <= 2 ^ 995) by (apply Rle_pow; [lra|lia]). pose proof (norm_near (vval v) w0) as T.
  destruct (rotated m r A v w Fm R E HA Fv ltac:(lra) M) as [Fw Dw]. split; [exact Fw|]. split; [|rewrite (rot_norm r w0 R); exact NW].
  pose proof (norm_triangle_sub (vval w) (mvec r (vval v)) (mvec r w0)) as T2.
  replace (vsub (mvec r (vval v)) (mvec r w0)) with (mvec r (vsub (vval v) w0)) in T2 by (unfold mvec, vsub; cbn [vx vy vz]; f_equal; ring). rewrite (rot_norm r _ R) in T2.
  pose proof (apart_pos (mval m) r) as A0. assert ((A + 6 * u) * norm (vval v) <= (A + 6 * u) * (D + d)) by (apply Rmult_le_compat_l; lra). lra.
Qed.
Lemma sum_near v w v0 w0 d e S T : vfinite v -> vfinite w -> norm (vsub (vval v) v0) <= d -> norm (vsub (vval w) w0) <= e -> norm v0 <= S -> norm w0 <= T -> S + d <= 2 ^ 1000 -> T + e <= 2 ^ 1000 ->
  vfinite (fvadd v w) /\ norm (vsub (vval (fvadd v w)) (vadd v0 w0)) <= d + e + u * (S + d + (T + e)) /\ norm (vadd v0 w0) <= S + T.
Proof.
  intros Fv Fw Dv Dw Nv Nw BS BT. pose proof u_pos. pose proof (norm_near (vval v) v0) as N1. pose proof (norm_near (vval w) w0) as N2.
  destruct (fvadd_error v w Fv Fw ltac:(lra) ltac:(lra)) as [F D]. split; [exact F|].
  pose proof (norm_triangle (vval v) (vval w)) as N3. pose proof (norm_triangle v0 w0). split; [|lra].
  pose proof (norm_triangle_sub (vval (fvadd v w)) (vadd (vval v) (vval w)) (vadd v0 w0)) as T1.
  replace (vsub (vadd (vval v) (vval w)) (vadd v0 w0)) with (vadd (vsub (vval v) v0) (vsub (vval w) w0)) in T1 by (unfold vadd, vsub; cbn [vx vy vz]; f_equal; ring).
  pose proof (norm_triangle (vsub (vval v) v0) (vsub (vval w) w0)). assert (u * norm (vadd (vval v) (vval w)) <= u * (S + d + (T + e))) by (apply Rmult_le_compat_l; lra). lra.
Qed.
Lemma crossed_near v w v0 w0 d e S T : vfinite v -> vfinite w -> norm (vsub (vval v) v0) <= d -> norm (vsub (vval w) w0) <= e -> norm v0 <= S -> norm w0 <= T -> (S + d) * (T + e) <= 2 ^ 990 ->
  vfinite (fcross v w) /\ norm (vsub (vval (fcross v w)) (cross v0 w0)) <= d * (T + e) + S * e + 17321 / 10000 * (201 / 100 * u * ((S + d) * (T + e)) + 3 * h) /\ norm (cross v0 w0) <= S * T.
Proof.
  intros Fv Fw Dv Dw Nv Nw B. pose proof (norm_near (vval v) v0) as N1. pose proof (norm_near (vval w) w0) as N2.
  assert (P : norm (vval v) * norm (vval w) <= (S + d) * (T + e)) by (apply Rmult_le_compat; try apply norm_nonneg; lra).
  destruct (cross_near v w _ Fv Fw P B) as (F & _ & _ & _ & D). split; [exact F|]. split; [|eapply Rle_trans; [apply norm_cross_le|apply Rmult_le_compat; try apply norm_nonneg; lra]].
  pose proof (norm_triangle_sub (vval (fcross v w)) (cross (vval v) (vval w)) (cross v0 w0)) as T1.
  replace (vsub (cross (vval v) (vval w)) (cross v0 w0)) with (vadd (cross (vsub (vval v) v0) (vval w)) (cross v0 (vsub (vval w) w0))) in T1 by (unfold vadd, vsub, cross; cbn [vx vy vz]; f_equal; ring).
  pose proof (norm_triangle (cross (vsub (vval v) v0) (vval w)) (cross v0 (vsub (vval w) w0))). pose proof (norm_cross_le (vsub (vval v) v0) (vval w)). pose proof (norm_cross_le v0 (vsub (vval w) w0)).
  assert (norm (vsub (vval v) v0) * norm (vval w) <= d * (T + e)) by (apply Rmult_le_compat; try apply norm_nonneg; lra).
  assert (norm v0 * norm (vsub (vval w) w0) <= S * e) by (apply Rmult_le_compat; try apply norm_nonneg; lra). lra.
Qed.
