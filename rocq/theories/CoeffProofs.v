(** The coefficients of derivative_of_exp_so3 against sine and cosine. *)
From Verif Require Import RotSpec GeomModel RotProofs.
Local Open Scope R_scope.

(** Squared angles for which the coefficients are exact. *)
Definition regular (s : R) : Prop := s = 0 \/ TINY_SQUARE_ANGLE <= s.

Lemma tiny_val : TINY_SQUARE_ANGLE = / 250000.
Proof. unfold TINY_SQUARE_ANGLE. field. Qed.
Lemma tiny_pos : 0 < TINY_SQUARE_ANGLE.
Proof. rewrite tiny_val. lra. Qed.

Lemma coeff_ac s : 0 <= s ->
  ca (derivative_of_exp_so3 s) = 1 - s * cc (derivative_of_exp_so3 s).
Proof.
  intro H. unfold derivative_of_exp_so3. destruct (Rlt_dec s TINY_SQUARE_ANGLE) as [L|L].
  - reflexivity.
  - cbn [ca cc]. pose proof tiny_pos. assert (P : 0 < s) by lra.
    destruct (sqrt_facts s P) as [Q E].
    set (t := sqrt s) in *. rewrite <- E. field. lra.
Qed.

Lemma coeff_zero : derivative_of_exp_so3 0 = Coeffs 1 (1 / 2) (1 / 6).
Proof.
  unfold derivative_of_exp_so3. pose proof tiny_pos.
  destruct (Rlt_dec 0 TINY_SQUARE_ANGLE) as [_|?]; [|lra].
  unfold tiny_coeff. f_equal; field.
Qed.

Lemma coeff_large t : 0 < t -> TINY_SQUARE_ANGLE <= t * t ->
  let k := derivative_of_exp_so3 (t * t) in
  t * ca k = sin t /\ t * t * cb k = 1 - cos t /\ t * t * t * cc k = t - sin t.
Proof.
  intros P L. cbv zeta. unfold derivative_of_exp_so3.
  destruct (Rlt_dec (t * t) TINY_SQUARE_ANGLE) as [?|_]; [lra|].
  rewrite sqrt_square by lra. cbn [ca cb cc]. repeat split; field; lra.
Qed.

Lemma coeff_regular t : 0 <= t -> regular (t * t) ->
  let k := derivative_of_exp_so3 (t * t) in
  t * ca k = sin t /\ t * t * cb k = 1 - cos t /\ t * t * t * cc k = t - sin t.
Proof.
  intros P [Z|L].
  - assert (t = 0) by nra. subst t. replace (0 * 0) with 0 by ring.
    rewrite coeff_zero, sin_0, cos_0. cbn. repeat split; ring.
  - apply coeff_large; [|exact L]. pose proof tiny_pos. nra.
Qed.

(** ** Taylor bounds *)
Lemma fact_S n : INR (fact (S n)) = INR (S n) * INR (fact n).
Proof. rewrite fact_simpl, mult_INR. reflexivity. Qed.
Lemma fact_0 : INR (fact 0) = 1. Proof. reflexivity. Qed.
Ltac facts := rewrite ?fact_S, ?fact_0; repeat rewrite S_INR; change (INR 0) with 0.

Definition sin7 (t : R) : R := t - t^3 / 6 + t^5 / 120 - t^7 / 5040.
Definition cos6 (t : R) : R := 1 - t^2 / 2 + t^4 / 24 - t^6 / 720.

Lemma sin_bounds t : 0 <= t <= 4 -> sin7 t <= sin t <= sin7 t + t^9 / 362880.
Proof.
  intros [L U]. destruct (pre_sin_bound t 1 L U) as [A B]. revert A B.
  change (2 * 1 + 1)%nat with 3%nat. change (2 * (1 + 1))%nat with 4%nat.
  unfold sin_approx, sin_term.
  change (sum_f_R0 (fun i => (-1) ^ i * (t ^ (2 * i + 1) / INR (fact (2 * i + 1)))) 4) with
    (sum_f_R0 (fun i => (-1) ^ i * (t ^ (2 * i + 1) / INR (fact (2 * i + 1)))) 3
     + (-1) ^ 4 * (t ^ 9 / INR (fact 9))).
  assert (E : sum_f_R0 (fun i => (-1) ^ i * (t ^ (2 * i + 1) / INR (fact (2 * i + 1)))) 3 = sin7 t).
  { change (sum_f_R0 (fun i => (-1) ^ i * (t ^ (2 * i + 1) / INR (fact (2 * i + 1)))) 3) with
      ((-1) ^ 0 * (t ^ 1 / INR (fact 1)) + (-1) ^ 1 * (t ^ 3 / INR (fact 3))
       + (-1) ^ 2 * (t ^ 5 / INR (fact 5)) + (-1) ^ 3 * (t ^ 7 / INR (fact 7))).
    facts. unfold sin7. field. }
  rewrite E. facts. intros A B. split; [exact A|].
  eapply Rle_trans; [exact B|]. apply Req_le. field.
Qed.

Lemma cos_bounds t : 0 <= t <= 2 -> cos6 t <= cos t <= cos6 t + t^8 / 40320.
Proof.
  intros [L U]. destruct (pre_cos_bound t 1 ltac:(lra) U) as [A B]. revert A B.
  change (2 * 1 + 1)%nat with 3%nat. change (2 * (1 + 1))%nat with 4%nat.
  unfold cos_approx, cos_term.
  change (sum_f_R0 (fun i => (-1) ^ i * (t ^ (2 * i) / INR (fact (2 * i)))) 4) with
    (sum_f_R0 (fun i => (-1) ^ i * (t ^ (2 * i) / INR (fact (2 * i)))) 3
     + (-1) ^ 4 * (t ^ 8 / INR (fact 8))).
  assert (E : sum_f_R0 (fun i => (-1) ^ i * (t ^ (2 * i) / INR (fact (2 * i)))) 3 = cos6 t).
  { change (sum_f_R0 (fun i => (-1) ^ i * (t ^ (2 * i) / INR (fact (2 * i)))) 3) with
      ((-1) ^ 0 * (t ^ 0 / INR (fact 0)) + (-1) ^ 1 * (t ^ 2 / INR (fact 2))
       + (-1) ^ 2 * (t ^ 4 / INR (fact 4)) + (-1) ^ 3 * (t ^ 6 / INR (fact 6))).
    facts. unfold cos6. field. }
  rewrite E. facts. intros A B. split; [exact A|].
  eapply Rle_trans; [exact B|]. apply Req_le. field.
Qed.

(** The tiny branch is the Taylor polynomial, so it misses sine and cosine by at
    most the next term. *)
Lemma coeff_tiny t : 0 <= t -> t * t < TINY_SQUARE_ANGLE ->
  let k := derivative_of_exp_so3 (t * t) in
  (0 <= sin t - t * ca k <= t^9 / 362880) /\
  (0 <= t * t * cb k - (1 - cos t) <= t^8 / 40320) /\
  (0 <= t * t * t * cc k - (t - sin t) <= t^9 / 362880).
Proof.
  intros P L. cbv zeta. rewrite tiny_val in L.
  assert (T : t <= 1 / 2) by nra.
  pose proof (sin_bounds t ltac:(lra)) as S. pose proof (cos_bounds t ltac:(lra)) as C.
  unfold derivative_of_exp_so3.
  destruct (Rlt_dec (t * t) TINY_SQUARE_ANGLE) as [_|N]; [|rewrite tiny_val in N; lra].
  cbn [ca cb cc]. unfold tiny_coeff.
  assert (E1 : t * (1 - t * t * (1 / 6 - t * t * (1 / 120 - t * t * (1 / 5040)))) = sin7 t)
    by (unfold sin7; field).
  assert (E2 : t * t * (1 / 2 - t * t * (1 / 24 - t * t * (1 / 720))) = 1 - cos6 t)
    by (unfold cos6; field).
  assert (E3 : t * t * t * (1 / 6 - t * t * (1 / 120 - t * t * (1 / 5040))) = t - sin7 t)
    by (unfold sin7; field).
  rewrite E1, E2, E3. lra.
Qed.

(** ** The matrix I + b W + c W^2 *)
Definition Vmap (w v : vec3) : vec3 :=
  let k := derivative_of_exp_so3 (norm2 w) in
  vadd (vadd (vscale (ca k) v) (vscale (cb k) (cross w v))) (vscale (cc k * dot w v) w).

Lemma cross_cross w v : cross w (cross w v) = vsub (vscale (dot w v) w) (vscale (norm2 w) v).
Proof. vring. Qed.
Lemma Vmap_alt w v :
  let k := derivative_of_exp_so3 (norm2 w) in
  Vmap w v = vadd (vadd v (vscale (cb k) (cross w v))) (vscale (cc k) (cross w (cross w v))).
Proof.
  cbv zeta. unfold Vmap. rewrite (coeff_ac (norm2 w) (norm2_nonneg w)).
  set (b := cb _). set (c := cc _). destruct w, v. unfold norm2. vsimpl. f_equal; ring.
Qed.
Lemma Vmap_add w v v' : Vmap w (vadd v v') = vadd (Vmap w v) (Vmap w v').
Proof. rewrite !Vmap_alt. generalize (cb (derivative_of_exp_so3 (norm2 w))) (cc (derivative_of_exp_so3 (norm2 w))). vring. Qed.
Lemma Vmap_scale w k v : Vmap w (vscale k v) = vscale k (Vmap w v).
Proof. rewrite !Vmap_alt. generalize (cb (derivative_of_exp_so3 (norm2 w))) (cc (derivative_of_exp_so3 (norm2 w))). vring. Qed.
Lemma Vmap_zero v : Vmap vzero v = v.
Proof. unfold Vmap. set (k := derivative_of_exp_so3 _). 
  assert (E : norm2 vzero = 0) by (unfold norm2; vsimpl; ring).
  unfold k. rewrite E, coeff_zero. cbn [ca cb cc]. vring. Qed.
Lemma Vmap_rot m w v : is_rotation m -> Vmap (mvec m w) (mvec m v) = mvec m (Vmap w v).
Proof.
  intro H. unfold Vmap. rewrite rot_norm2, rot_dot, rot_cross by exact H.
  rewrite !mvec_add, !mvec_scale. reflexivity.
Qed.

(** The exponential as I + (sin t / t) W + ((1 - cos t) / t^2) W^2. *)
Lemma mexp_split v x a b : norm v * a = sin (norm v) -> norm v * norm v * b = 1 - cos (norm v) ->
  mvec (mexp v) x = vadd (vadd x (vscale a (cross v x))) (vscale b (cross v (cross v x))).
Proof.
  destruct (vec3_polar v) as (u & U & E). pose proof (norm_nonneg v) as N.
  set (t := norm v) in *. clearbody t. intros A B. subst v.
  rewrite mexp_unit by exact U. rewrite angle_axis_split, <- A.
  replace (cos t) with (1 - t * t * b) by lra.
  unfold unit_vec, norm2 in U. destruct u as [p q r], x as [i j k]. unfold cross_matrix. vsimpl.
  assert (P : p * p = 1 - q * q - r * r) by lra.
  f_equal; ring [P].
Qed.

(** [W V = E - I] where the coefficients are exact. *)
Lemma mexp_Vmap w x : regular (norm2 w) -> mvec (mexp w) x = vadd x (Vmap w (cross w x)).
Proof.
  rewrite <- norm_sqr. intro Rg. destruct (coeff_regular (norm w) (norm_nonneg w) Rg) as (A & B & _).
  rewrite (mexp_split w x _ _ A B).
  unfold Vmap. rewrite <- (norm_sqr w).
  generalize (ca (derivative_of_exp_so3 (norm w * norm w))) (cb (derivative_of_exp_so3 (norm w * norm w)))
    (cc (derivative_of_exp_so3 (norm w * norm w))). clear. intros. vring.
Qed.
Lemma Vmap_cross w x : cross w (Vmap w x) = Vmap w (cross w x).
Proof. unfold Vmap. vring. Qed.

(** ** The inverse used by SE3::log *)
Definition Vinv (w t : vec3) : vec3 :=
  let wt := cross w t in
  vadd (vsub t (vscale (1 / 2) wt)) (vscale (log_order_2_coeff (norm2 w)) (cross w wt)).

Definition err1 (s : R) : R :=
  let k := derivative_of_exp_so3 s in let j := log_order_2_coeff s in
  cb k - 1 / 2 - s * (cb k * j - cc k / 2).
Definition err2 (s : R) : R :=
  let k := derivative_of_exp_so3 s in let j := log_order_2_coeff s in
  cc k - cb k / 2 + j * ca k.

Lemma cross_add_r w u v : cross w (vadd u v) = vadd (cross w u) (cross w v). Proof. vring. Qed.
Lemma cross_sub_r w u v : cross w (vsub u v) = vsub (cross w u) (cross w v). Proof. vring. Qed.
Lemma cross_scale_r w k v : cross w (vscale k v) = vscale k (cross w v). Proof. vring. Qed.
Lemma cross_cubed w t : cross w (cross w (cross w t)) = vscale (- norm2 w) (cross w t).
Proof. vring. Qed.
Lemma V_Vinv w t :
  Vmap w (Vinv w t) =
  vadd t (vadd (vscale (err1 (norm2 w)) (cross w t)) (vscale (err2 (norm2 w)) (cross w (cross w t)))).
Proof.
  rewrite Vmap_alt. unfold Vinv, err1, err2. rewrite (coeff_ac (norm2 w) (norm2_nonneg w)).
  generalize (cb (derivative_of_exp_so3 (norm2 w))) (cc (derivative_of_exp_so3 (norm2 w)))
    (log_order_2_coeff (norm2 w)). intros b c j.
  rewrite ?cross_add_r, ?cross_sub_r, ?cross_scale_r, ?cross_cubed,
    ?cross_add_r, ?cross_sub_r, ?cross_scale_r, ?cross_cubed, ?cross_scale_r.
  generalize (cross w (cross w t)) (cross w t) (norm2 w). intros wwt wt s.
  destruct wwt, wt, t. vsimpl. f_equal; field.
Qed.
Lemma Vinv_V w t : Vinv w (Vmap w t) = Vmap w (Vinv w t).
Proof.
  rewrite !Vmap_alt. unfold Vinv.
  generalize (cb (derivative_of_exp_so3 (norm2 w))) (cc (derivative_of_exp_so3 (norm2 w)))
    (log_order_2_coeff (norm2 w)). intros b c j.
  rewrite ?cross_add_r, ?cross_sub_r, ?cross_scale_r, ?cross_cubed,
    ?cross_add_r, ?cross_sub_r, ?cross_scale_r, ?cross_cubed, ?cross_scale_r.
  generalize (cross w (cross w t)) (cross w t) (norm2 w). intros wwt wt s.
  destruct wwt, wt, t. vsimpl. f_equal; field.
Qed.

Lemma three_lt_PI : 3 < PI.
Proof. pose proof PI2_3_2. lra. Qed.

Lemma sqrt_bound s x : 0 <= x -> s <= x * x -> sqrt s <= x.
Proof.
  intros Hx H. rewrite <- (sqrt_square x Hx). apply sqrt_le_1_alt. exact H.
Qed.

Lemma errs_regular s : regular s -> 0 <= s <= PI * PI -> err1 s = 0 /\ err2 s = 0.
Proof.
  intros [->|L] [S0 S1].
  - unfold err1, err2. rewrite coeff_zero. unfold log_order_2_coeff. pose proof tiny_pos.
    destruct (Rlt_dec 0 TINY_SQUARE_ANGLE) as [_|?]; [|lra]. cbn [ca cb cc]. split; field.
  - pose proof tiny_pos. assert (P : 0 < s) by lra. destruct (sqrt_facts s P) as [Tp E].
    set (t := sqrt s) in *. 
    assert (TPI : t <= PI) by (apply sqrt_bound; [pose proof PI_RGT_0; lra|exact S1]).
    rewrite <- E in L. destruct (coeff_large t Tp L) as (A & B & C). rewrite E in A, B, C, L.
    pose proof (coeff_ac s S0) as AC.
    unfold err1, err2, log_order_2_coeff.
    destruct (Rlt_dec s TINY_SQUARE_ANGLE) as [?|_]; [lra|].
    set (k := derivative_of_exp_so3 s) in *.
    set (a := ca k) in *. set (b := cb k) in *. set (c := cc k) in *.
    clearbody a b c. clear k.
    (* s b^2 - 2 b + a^2 = 0 *)
    assert (Q : s * b * b - 2 * b + a * a = 0).
    { pose proof (sin2_cos2 t) as SC. unfold Rsqr in SC.
      assert (Z : s * (s * b * b - 2 * b + a * a) = 0).
      { replace (s * (s * b * b - 2 * b + a * a)) with ((s * b) * (s * b) - 2 * (s * b) + s * (a * a)) by ring.
        rewrite B. replace (s * (a * a)) with ((t * a) * (t * a)) by (rewrite <- E; ring).
        rewrite A. replace (sin t * sin t) with (1 - cos t * cos t) by lra. ring. }
      apply Rmult_integral in Z. destruct Z; lra. }
    assert (BP : 0 < b).
    { assert (N : 0 < 1 - cos t).
      { assert (cos t < 1). { rewrite <- cos_0. apply cos_decreasing_1; lra. } lra. }
      rewrite <- B in N. nra. }
    destruct (Rlt_dec 9 s) as [G|G].
    + split.
      * replace (s * (b * ((b - 1 / 2 * a) / (b * s)) - c / 2)) with (b - a / 2 - s * c / 2) by (field; lra).
        rewrite AC. field.
      * assert (F : b * s * (c - b / 2 + (b - 1 / 2 * a) / (b * s) * a) = 0).
        { replace (b * s * (c - b / 2 + (b - 1 / 2 * a) / (b * s) * a))
            with (b * (s * c) - s * b * b / 2 + b * a - a * a / 2) by (field; lra).
          replace (s * c) with (1 - a) by lra. lra. }
        apply Rmult_integral in F. destruct F as [F|F]; [nra|exact F].
    + assert (AP : 0 < a).
      { assert (t <= 3) by (apply sqrt_bound; lra). pose proof three_lt_PI.
        assert (N : 0 < sin t) by (apply sin_gt_0; lra). rewrite <- A in N. nra. }
      split; [|field; lra].
      assert (F : a * (b - 1 / 2 - s * (b * ((b * (1 / 2) - c) / a) - c / 2)) = 0).
      { replace (a * (b - 1 / 2 - s * (b * ((b * (1 / 2) - c) / a) - c / 2)))
          with (a * b - a / 2 - s * b * b / 2 + b * (s * c) + a * (s * c) / 2) by (field; lra).
        replace (s * c) with (1 - a) by lra. lra. }
      apply Rmult_integral in F. destruct F as [F|F]; [lra|exact F].
Qed.

Lemma errs_tiny s : 0 <= s < TINY_SQUARE_ANGLE ->
  Rabs (err1 s) <= s * s / 10000 /\ Rabs (err2 s) <= s / 20000.
Proof.
  intros [S0 S1]. unfold err1, err2, log_order_2_coeff, derivative_of_exp_so3.
  destruct (Rlt_dec s TINY_SQUARE_ANGLE) as [_|?]; [|lra].
  cbn [ca cb cc]. unfold tiny_coeff. rewrite tiny_val in S1. split.
  - match goal with |- Rabs ?e <= _ =>
      replace e with (s * s * (- 1 / 60480 + s * (- 362849 / 725760
        + s * (907157 / 21772800 - s / 720)))) by field
    end.
    rewrite Rabs_mult, (Rabs_pos_eq (s * s)) by nra.
    replace (s * s / 10000) with (s * s * (1 / 10000)) by field.
    apply Rmult_le_compat_l; [nra|]. apply Rabs_le.
    assert (B : 0 <= 907157 / 21772800 - s / 720 <= 1) by lra.
    set (u := 907157 / 21772800 - s / 720) in *.
    assert (B1 : - 1 <= - 362849 / 725760 + s * u <= 1) by nra.
    set (x := - 362849 / 725760 + s * u) in *. nra.
  - match goal with |- Rabs ?e <= _ =>
      replace e with (s * (1 / 30240 + s * (25919 / 25920 + s * (- 604817 / 3628800
        + s * (1270037 / 152409600 - s / 5040))))) by field
    end.
    rewrite Rabs_mult, (Rabs_pos_eq s) by nra.
    replace (s / 20000) with (s * (1 / 20000)) by field.
    apply Rmult_le_compat_l; [nra|]. apply Rabs_le.
    assert (B : 0 <= 1270037 / 152409600 - s / 5040 <= 1) by lra.
    set (u := 1270037 / 152409600 - s / 5040) in *.
    assert (B1 : - 1 <= - 604817 / 3628800 + s * u <= 1) by nra.
    set (x := - 604817 / 3628800 + s * u) in *.
    assert (B2 : 0 <= 25919 / 25920 + s * x <= 2) by nra.
    set (y := 25919 / 25920 + s * x) in *. nra.
Qed.

(** ** Norm inequalities *)
Lemma lagrange v w : norm2 (cross v w) = norm2 v * norm2 w - dot v w * dot v w.
Proof. vring. Qed.
Lemma norm_le_sqr v k : 0 <= k -> norm2 v <= k * k -> norm v <= k.
Proof. intros K H. apply sqrt_bound; assumption. Qed.
Lemma norm_cross_le v w : norm (cross v w) <= norm v * norm w.
Proof.
  apply norm_le_sqr.
  - apply Rmult_le_pos; apply norm_nonneg.
  - rewrite lagrange, <- !norm_sqr. nra.
Qed.
Lemma cauchy v w : dot v w <= norm v * norm w.
Proof.
  pose proof (norm2_nonneg (cross v w)) as H. rewrite lagrange, <- !norm_sqr in H.
  pose proof (Rmult_le_pos _ _ (norm_nonneg v) (norm_nonneg w)).
  set (p := norm v * norm w) in *.
  assert (dot v w * dot v w <= p * p) by (unfold p; lra). nra.
Qed.
Lemma norm_triangle v w : norm (vadd v w) <= norm v + norm w.
Proof.
  apply norm_le_sqr.
  - pose proof (norm_nonneg v). pose proof (norm_nonneg w). lra.
  - pose proof (cauchy v w). replace (norm2 (vadd v w)) with (norm2 v + norm2 w + 2 * dot v w) by vring.
    rewrite <- !norm_sqr. lra.
Qed.
Lemma norm_triangle_sub u v w : norm (vsub u w) <= norm (vsub u v) + norm (vsub v w).
Proof. replace (vsub u w) with (vadd (vsub u v) (vsub v w)) by vring. apply norm_triangle. Qed.
Lemma norm_vsub_self v : norm (vsub v v) = 0.
Proof. replace (vsub v v) with vzero by vring. apply norm_vzero. Qed.

(** The translation error of exp(log g) and log(exp v) when the angle is tiny. *)
Lemma V_Vinv_tiny w t : norm2 w < TINY_SQUARE_ANGLE ->
  norm (vsub (Vmap w (Vinv w t)) t) <= / 10^15 * norm t.
Proof.
  intro L. rewrite V_Vinv.
  replace (vsub (vadd t (vadd (vscale (err1 (norm2 w)) (cross w t)) (vscale (err2 (norm2 w)) (cross w (cross w t))))) t)
    with (vadd (vscale (err1 (norm2 w)) (cross w t)) (vscale (err2 (norm2 w)) (cross w (cross w t)))).
  2:{ generalize (err1 (norm2 w)) (err2 (norm2 w)). intros. vring. }
  eapply Rle_trans; [apply norm_triangle|]. rewrite !norm_scale.
  pose proof (norm2_nonneg w) as S0. destruct (errs_tiny (norm2 w) (conj S0 L)) as [E1 E2].
  pose proof (norm_cross_le w t) as N1. pose proof (norm_cross_le w (cross w t)) as N2.
  pose proof (norm_nonneg w) as NW. pose proof (norm_nonneg t) as NT.
  pose proof (norm_nonneg (cross w t)). pose proof (norm_nonneg (cross w (cross w t))).
  pose proof (norm_sqr w) as Q. rewrite tiny_val in L.
  set (s := norm2 w) in *. set (n := norm w) in *. set (m := norm t) in *.
  set (x := norm (cross w t)) in *. set (y := norm (cross w (cross w t))) in *.
  assert (NL : n <= 1 / 500) by nra.
  assert (X : Rabs (err1 s) * x <= s * s / 10000 * (n * m)).
  { apply Rmult_le_compat; try assumption. apply Rabs_pos. }
  assert (Y : Rabs (err2 s) * y <= s / 20000 * (s * m)).
  { apply Rmult_le_compat; try assumption; [apply Rabs_pos|]. rewrite <- Q.
    eapply Rle_trans; [exact N2|]. rewrite Rmult_assoc. apply Rmult_le_compat_l; assumption. }
  assert (SS : s * s <= / 250000 * / 250000) by nra.
  assert (SM : 0 <= m * (s * s)) by nra.
  apply Rle_trans with (m * (s * s) * (n / 10000 + 1 / 20000)); [lra|].
  apply Rle_trans with (m * (s * s) * (1 / 19900)); [apply Rmult_le_compat_l; lra|].
  apply Rle_trans with (m * (/ 250000 * / 250000) * (1 / 19900)); [nra|].
  lra.
Qed.
