(** The inverse of the screw matrix over the reals. *)
From Coq Require Import Reals Psatz ZArith.
From Flocq Require Import Core BinarySingleNaN.
From Verif Require Import Cpp FloatModel FloatSpec NrmSpec Vec RotSpec ScrewSpec FloatProofs NrmProofs DriftModel DriftSpec DriftProofs DriftProofs2 SpinModel SpinSpec SpinProofs SpinProofs2 TwistModel TwistProofs TwistProofs2 TlogProofs4.
From Verif Require CoeffProofs.
Local Open Scope R_scope.

(** The exact coefficient of the second order. *)
Definition wk (L : R) : R := (1 - wa L / (2 * wb L)) / (L * L).
Definition ck (L : R) : R := if Req_EM_T L 0 then 1 / 12 else wk L.
Definition untwist (k : R) (w t : vec3) : vec3 := vadd (vsub t (vscale (1 / 2) (cross w t))) (vscale k (cross w (cross w t))).
Definition unscrew (w t : vec3) : vec3 := untwist (ck (norm w)) w t.

Lemma wb_pos L : 0 < L < 2 * PI -> 0 < wb L.
Proof.
  intros [P Q]. unfold wb. apply Rdiv_lt_0_compat; [|nra]. assert (cos L < 1); [|lra].
  destruct (Rle_or_lt L PI) as [H|H].
  - rewrite <- cos_0. apply cos_decreasing_1; lra.
  - replace L with (- (2 * PI - L) + 2 * INR 1 * PI) by (cbn; ring). rewrite cos_period, cos_neg, <- cos_0. apply cos_decreasing_1; lra.
Qed.
Lemma w_circle L : 0 < L -> wb L * wb L * (L * L) - 2 * wb L + wa L * wa L = 0.
Proof. intro P. unfold wa, wb. pose proof (sin2_cos2 L) as E. unfold Rsqr in E. replace (_ - _ + _) with ((sin L * sin L + cos L * cos L - 1) / (L * L)) by (field; lra). rewrite E. field. lra. Qed.
Lemma w_third L : 0 < L -> wc L * (L * L) = 1 - wa L.
Proof. intro P. unfold wa, wc. field. lra. Qed.
Lemma wk_first L : 0 < L < 2 * PI -> wk L * (wb L * (L * L)) = wb L - wa L / 2.
Proof. intros H. pose proof (wb_pos L H). unfold wk. field. lra. Qed.
Lemma wk_second L : 0 < L < 2 * PI -> wk L * wa L = wb L / 2 - wc L.
Proof.
  intros H. pose proof (wb_pos L H) as B. pose proof (wk_first L H) as F. pose proof (w_circle L ltac:(lra)) as C. pose proof (w_third L ltac:(lra)) as T.
  assert (P : 0 < wb L * (L * L)) by (apply Rmult_lt_0_compat; nra).
  apply Rmult_eq_reg_r with (wb L * (L * L)); [|lra]. replace (wk L * wa L * (wb L * (L * L))) with (wk L * (wb L * (L * L)) * wa L) by ring. rewrite F.
  replace ((wb L / 2 - wc L) * (wb L * (L * L))) with (wb L * (wb L * (L * L)) / 2 - wb L * (wc L * (L * L))) by field. rewrite T. lra.
Qed.
(** The two ways of turning and moving undo one another. *)
Lemma cross_thrice w t : cross w (cross w (cross w t)) = vscale (- norm2 w) (cross w t).
Proof. unfold norm2. vring. Qed.
Lemma along w t : vscale (dot w t) w = vadd (cross w (cross w t)) (vscale (norm2 w) t).
Proof. unfold norm2. vring. Qed.
Definition spun (b c : R) (w t : vec3) : vec3 := vadd (vadd t (vscale b (cross w t))) (vscale c (cross w (cross w t))).
Lemma spun_spun b c b' c' w t : spun b c w (spun b' c' w t) = spun (b + b' - norm2 w * (b * c' + c * b')) (c + b * b' + c' - norm2 w * (c * c')) w t.
Proof. unfold spun, norm2. vring. Qed.
Lemma screw_spun w t : screw w t 1 = spun (cb (norm w)) (cc (norm w)) w t.
Proof.
  rewrite screw_coeffs. cbv zeta. assert (E : ca (norm w) + cc (norm w) * norm2 w = 1).
  { rewrite <- norm_sqr. unfold ca, cc. destruct (Req_EM_T (norm w) 0) as [->|N]; [lra|]. pose proof (norm_nonneg w). pose proof (w_third (norm w) ltac:(lra)). lra. }
  replace (vscale (cc (norm w) * dot w t) w) with (vscale (cc (norm w)) (vscale (dot w t) w)) by vring. rewrite along. unfold spun.
  replace (ca (norm w)) with (1 - cc (norm w) * norm2 w) by lra. generalize (cc (norm w)) (cb (norm w)) (norm2 w). intros. vring.
Qed.
Lemma untwist_spun k w t : untwist k w t = spun (- (1 / 2)) k w t.
Proof. unfold untwist, spun. vring. Qed.
Lemma undo L : 0 <= L < 2 * PI -> cb L - 1 / 2 - L * L * (cb L * ck L - cc L / 2) = 0 /\ cc L - cb L / 2 + ck L - L * L * (cc L * ck L) = 0.
Proof.
  intros [P Q]. unfold cb, cc, ck. destruct (Req_EM_T L 0) as [->|N]; [split; lra|]. assert (H : 0 < L < 2 * PI) by lra.
  pose proof (wk_first L H). pose proof (wk_second L H). pose proof (w_third L ltac:(lra)) as T. split.
  - replace (wb L - 1 / 2 - L * L * (wb L * wk L - wc L / 2)) with (wb L - 1 / 2 - wk L * (wb L * (L * L)) + wc L * (L * L) / 2) by field. lra.
  - replace (wc L - wb L / 2 + wk L - L * L * (wc L * wk L)) with (wc L - wb L / 2 + wk L * (1 - wc L * (L * L))) by ring. rewrite T. lra.
Qed.
Lemma spun_0 w t : spun 0 0 w t = t.
Proof. unfold spun. vring. Qed.
Lemma screw_unscrew w t : norm w < 2 * PI -> screw w (unscrew w t) 1 = t.
Proof.
  intro H. pose proof (norm_nonneg w). destruct (undo (norm w) ltac:(lra)) as [A B]. unfold unscrew. rewrite screw_spun, untwist_spun, spun_spun, <- norm_sqr.
  replace (cb (norm w) + - (1 / 2) - _) with 0 by lra. replace (cc (norm w) + _ + _ - _) with 0 by lra. apply spun_0.
Qed.
Lemma unscrew_screw w v : norm w < 2 * PI -> unscrew w (screw w v 1) = v.
Proof.
  intro H. pose proof (norm_nonneg w). destruct (undo (norm w) ltac:(lra)) as [A B]. unfold unscrew. rewrite screw_spun, untwist_spun, spun_spun, <- norm_sqr.
  replace (- (1 / 2) + cb (norm w) - _) with 0 by lra. replace (ck (norm w) + _ + _ - _) with 0 by lra. apply spun_0.
Qed.

(** ** Bounds *)
Lemma cos_low : 7 / 100 <= cos (15001 / 10000) /\ 54 / 100 <= cos 1.
Proof.
  pose proof (CoeffProofs.cos_bounds (15001 / 10000) ltac:(lra)) as A. pose proof (CoeffProofs.cos_bounds 1 ltac:(lra)) as B. unfold CoeffProofs.cos6 in *. lra.
Qed.
Lemma wa_low L M c : 0 < L <= 2 * M -> M <= 15001 / 10000 -> c <= cos M -> 0 <= c -> (1 - M * M / 6) * c <= wa L.
Proof.
  intros [P Q] HM Hc C0. set (x := L / 2). assert (X : 0 < x <= M) by (unfold x; lra). pose proof PI_bounds as PB.
  assert (E : wa L = sin x / x * cos x) by (unfold wa; replace L with (2 * x) at 1 by (unfold x; field); rewrite sin_2a; unfold x; field; lra). rewrite E.
  assert (C : c <= cos x) by (eapply Rle_trans; [exact Hc|]; apply cos_decr_1; lra).
  assert (S : 1 - M * M / 6 <= sin x / x).
  { apply Rmult_le_reg_r with x; [lra|]. unfold Rdiv at 2. rewrite Rmult_assoc, Rinv_l, Rmult_1_r by lra. pose proof (CoeffProofs.sin_bounds x ltac:(lra)) as [A _]. unfold CoeffProofs.sin7 in A.
    assert (x * x <= M * M) by nra. assert (x ^ 7 <= 42 * x ^ 5) by (assert (0 < x ^ 5) by (apply pow_lt; lra); replace (x ^ 7) with (x * x * x ^ 5) by ring; apply Rmult_le_compat_r; nra). assert (0 < x ^ 5) by (apply pow_lt; lra).
    assert (x ^ 3 <= M * M * x) by (replace (x ^ 3) with (x * x * x) by ring; nra). lra. }
  apply Rmult_le_compat; try lra. nra.
Qed.
Lemma wa_3 L : 0 < L <= 30001 / 10000 -> 43 / 1000 <= wa L.
Proof. intro H. destruct cos_low as [C _]. eapply Rle_trans; [|apply (wa_low L (150005 / 100000) (7 / 100)); try lra]; [lra|]. eapply Rle_trans; [exact C|]. pose proof PI_bounds. apply cos_decr_1; lra. Qed.
Lemma wa_2 L : 0 < L <= 2 -> 45 / 100 <= wa L.
Proof. intro H. destruct cos_low as [_ C]. eapply Rle_trans; [|apply (wa_low L 1 (54 / 100)); lra]. lra. Qed.
(** Up to a half turn, and a little more. *)
Definition reach_max : R := PI + / 1000000.
Lemma wk_bounds L : 0 < L <= reach_max -> 0 <= wk L * (L * L) <= 1 + / 1000.
Proof.
  unfold reach_max. intros [P Q]. pose proof PI_bounds as PB. pose proof (wb_pos L ltac:(lra)) as B.
  assert (E : wk L * (L * L) = 1 - wa L / (2 * wb L)) by (unfold wk; field; lra). rewrite E.
  set (x := L / 2). assert (X : 0 < x <= 15715 / 10000) by (unfold x; lra).
  assert (S0 : 0 < sin x) by (apply sin_gt_0; lra).
  assert (F : wa L / (2 * wb L) = x * cos x / sin x).
  { assert (W : wa L * L = 2 * sin x * cos x) by (unfold wa; rewrite <- sin_2a; replace (2 * x) with L by (unfold x; field); field; lra).
    assert (V : wb L * (L * L) = 2 * (sin x * sin x)) by (unfold wb; replace (2 * (sin x * sin x)) with (1 - cos L); [field; lra|replace L with (2 * x) by (unfold x; field); rewrite cos_2a_sin; ring]).
    apply Rmult_eq_reg_r with (2 * wb L * (L * L) * sin x); [|apply Rgt_not_eq; apply Rmult_lt_0_compat; [nra|lra]].
    transitivity (wa L * L * (L * sin x)); [field; lra|]. replace (x * cos x / sin x * (2 * wb L * (L * L) * sin x)) with (wb L * (L * L) * (2 * x * cos x)) by (field; lra). rewrite W, V. unfold x. field. }
  rewrite F. split.
  - assert (x * cos x / sin x <= 1); [|lra]. apply Rmult_le_reg_r with (sin x); [exact S0|]. unfold Rdiv. rewrite Rmult_assoc, Rinv_l, Rmult_1_r, Rmult_1_l by lra.
    (* x cos x <= sin x *)
    pose proof (CoeffProofs.sin_bounds x ltac:(lra)) as [A _]. pose proof (CoeffProofs.cos_bounds x ltac:(lra)) as [_ C]. unfold CoeffProofs.sin7, CoeffProofs.cos6 in *.
    apply Rle_trans with (x * (1 - x ^ 2 / 2 + x ^ 4 / 24 - x ^ 6 / 720 + x ^ 8 / 40320)); [apply Rmult_le_compat_l; lra|]. eapply Rle_trans; [|exact A].
    assert (X2 : 0 < x * x <= 2470 / 1000) by nra. set (y := x * x) in *. assert (Y3 : 0 < x * y) by (apply Rmult_lt_0_compat; lra).
    apply Rminus_le. replace (_ - _) with (- (x * y) * (1 / 3 - y / 30 + y * y / 840 - y * y * y / 40320)) by (unfold y; field).
    assert (0 <= 1 / 3 - y / 30 + y * y / 840 - y * y * y / 40320); [|nra]. assert (0 <= y * y) by nra. assert (y * y * y <= 3 * (y * y)) by nra. lra.
  - assert (- / 1000 <= x * cos x / sin x); [|lra]. destruct (Rle_or_lt 0 (cos x)) as [C|C].
    + apply Rle_trans with 0; [lra|]. apply Rmult_le_pos; [nra|left; apply Rinv_0_lt_compat; exact S0].
    + assert (x > PI / 2) by (destruct (Rle_or_lt x (PI / 2)) as [Z|Z]; [pose proof (cos_ge_0 x ltac:(lra) Z); lra|exact Z]).
      assert (K : - cos x <= / 1000 / 2).
      { replace (- cos x) with (sin (x - PI / 2)) by (rewrite sin_minus, sin_PI2, cos_PI2; ring). eapply Rle_trans; [apply Rle_abs|]. eapply Rle_trans; [apply abs_sin|]. rewrite Rabs_right by lra. unfold x. lra. }
      assert (S9 : 9 / 10 <= sin x).
      { rewrite <- (Rplus_0_r x). pose proof (sin2_cos2 x) as E2. unfold Rsqr in E2. rewrite Rplus_0_r. assert (cos x * cos x <= / 1000) by nra. nra. }
      apply Rmult_le_reg_r with (sin x); [exact S0|]. unfold Rdiv. rewrite (Rmult_assoc (x * cos x)), Rinv_l, Rmult_1_r by lra. assert (- (x * cos x) <= 16 / 10 * (/ 1000 / 2)) by (replace (- (x * cos x)) with (x * - cos x) by ring; apply Rmult_le_compat; lra). lra.
Qed.
Lemma wk_half x : 0 < x -> 0 < sin x -> wk (2 * x) = (sin x - x * cos x) / (4 * (x * x) * sin x).
Proof.
  intros P S0. unfold wk, wa, wb. rewrite sin_2a, cos_2a_sin. field. split; [lra|]. split; [lra|]. replace (1 - (1 - 2 * sin x * sin x)) with (2 * (sin x * sin x)) by ring. nra.
Qed.
Lemma wk_small L : 0 < L <= reach_max -> 0 <= wk L <= 14 / 100.
Proof.
  intros H. split; [pose proof (wk_bounds L H) as [A _]; assert (0 < L * L) by nra; apply Rmult_le_reg_r with (L * L); lra|].
  unfold reach_max in H. pose proof PI_bounds as PB. set (x := L / 2). replace L with (2 * x) by (unfold x; field). assert (X : 0 < x <= 15711 / 10000) by (unfold x; lra).
  assert (S0 : 0 < sin x) by (apply sin_gt_0; lra). rewrite wk_half by lra. assert (X2 : 0 < x * x <= 2469 / 1000) by nra.
  pose proof (CoeffProofs.sin_bounds x ltac:(lra)) as [A B]. pose proof (CoeffProofs.cos_bounds x ltac:(lra)) as [C _]. unfold CoeffProofs.sin7, CoeffProofs.cos6 in *.
  assert (D : 0 < 4 * (x * x) * sin x) by (apply Rmult_lt_0_compat; lra). apply Rmult_le_reg_r with (4 * (x * x) * sin x); [exact D|]. unfold Rdiv at 1. rewrite Rmult_assoc, Rinv_l, Rmult_1_r by lra.
  assert (C' : x * (1 - x ^ 2 / 2 + x ^ 4 / 24 - x ^ 6 / 720) <= x * cos x) by (apply Rmult_le_compat_l; lra).
  set (y := x * x) in *. assert (N : sin x - x * cos x <= x * y * (1 / 3)).
  { assert (sin x - x * cos x <= x * y * (1 / 3 - y / 30 + y * y / 840 + y * y * y / 362880)).
    { eapply Rle_trans; [apply Rplus_le_compat; [exact B|apply Ropp_le_contravar; exact C']|]. right. unfold y. field. }
    assert (0 < x * y) by (apply Rmult_lt_0_compat; lra). assert (0 <= y * y) by nra. assert (y * y <= 3 * y) by nra. assert (y * y * y <= 9 * y) by nra. nra. }
  assert (S : x * (63 / 100) <= sin x).
  { eapply Rle_trans; [|exact A]. replace (x - x ^ 3 / 6 + x ^ 5 / 120 - x ^ 7 / 5040) with (x * (1 - y / 6 + y * y / 120 - y * y * y / 5040)) by (unfold y; field). apply Rmult_le_compat_l; [lra|].
    assert (0 <= (2469 / 1000 - y) * (1 / 6 - (y + 2469 / 1000) / 120)) by (apply Rmult_le_pos; lra). assert (y * y * y <= 2469 / 1000 * (2469 / 1000) * (2469 / 1000)) by (apply Rmult_le_compat; nra). lra. }
  assert (y * (x * (63 / 100)) <= y * sin x) by (apply Rmult_le_compat_l; lra). lra.
Qed.
