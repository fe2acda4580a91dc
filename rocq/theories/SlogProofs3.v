(** The other two branches of the coefficient of SE3::log. *)
From Coq Require Import Reals Psatz ZArith.
From Flocq Require Import Core BinarySingleNaN.
From Verif Require Import Cpp FloatModel FloatSpec NrmSpec Vec RotSpec ScrewSpec CoeffProofs FloatProofs NrmProofs DriftModel DriftSpec DriftProofs DriftProofs2 SpinModel SpinSpec SpinProofs SpinProofs2 TwistModel TwistProofs TwistProofs2 TlogModel TlogProofs2 TlogProofs4 SlogModel SlogProofs SlogProofs2.
Local Open Scope R_scope.

Lemma wb_large L : 29999 / 10000 <= L <= reach_max -> / 5 <= wb L /\ wb L <= 23 / 100 /\ 0 <= wa L + / 1000 /\ wa L <= / 2 /\ 197 / 100 <= wb L * (L * L) <= 2.
Proof.
  unfold reach_max. intros [P Q]. pose proof PI_bounds as PB.
  assert (C : cos L <= - (98 / 100)).
  { replace L with (L - PI + PI) by ring. rewrite neg_cos. set (y := L - PI). assert (Y : Rabs y <= 1422 / 10000) by (apply Rabs_le; unfold y; lra).
    assert (98 / 100 <= cos y); [|lra]. replace (cos y) with (cos (Rabs y)) by (unfold Rabs; destruct (Rcase_abs y); [apply cos_neg|reflexivity]). destruct (cos_bounds (Rabs y)) as [X _]; [split; [apply Rabs_pos|lra]|]. unfold cos6 in X. set (t := Rabs y) in *. assert (0 <= t) by apply Rabs_pos.
    assert (t * t <= 203 / 10000) by nra. assert (0 <= t * t) by nra. assert (t ^ 6 / 720 <= t ^ 4 / 24) by (replace (t ^ 6) with (t ^ 4 * (t * t)) by ring; assert (0 <= t ^ 4) by (replace (t ^ 4) with (t * t * (t * t)) by ring; nra); nra).
    replace (t ^ 2) with (t * t) in X by ring. lra. }
  pose proof (COS_bound L) as [C1 _]. assert (E : wb L * (L * L) = 1 - cos L) by (unfold wb; field; lra). assert (LL : 8999 / 1000 <= L * L <= 9873 / 1000) by nra.
  assert (0 < wb L) by (apply wb_pos; lra).
  split; [nra|]. split; [nra|]. assert (W : wa L * L = sin L) by (unfold wa; field; lra). pose proof (SIN_bound L).
  split; [|split; [nra|lra]]. destruct (Rle_or_lt L PI) as [G|G]; [assert (0 <= sin L) by (apply sin_ge_0; lra); nra|].
  assert (- (L - PI) <= sin L). { replace (sin L) with (- sin (L - PI)) by (rewrite <- neg_sin; f_equal; ring). assert (sin (L - PI) < L - PI) by (apply sin_lt_x; lra). lra. } nra.
Qed.
Lemma coeff_large L z a b : 29999 / 10000 <= L <= reach_max -> finite z -> finite a -> finite b -> Rabs (val z - L * L) <= 302 / 100 * u * (L * L) ->
  Rabs (val a - wa L) <= 94 / 10 * u -> Rabs (val b - wb L) * L <= (132 / 10 + 203 / 100 / L) * u ->
  let k := fdivide (fsub b (fmul fhalf a)) (fmul b z) in finite k /\ Rabs (val k - wk L) * (L * L) <= 100 * u.
Proof.
  intros HL Fz Fa Fb Ez Ea Eb k. pose proof PI_bounds as PB. pose proof h_pos as Hp. pose proof h_small_u as Hs. pose proof u_pos as Up. pose proof big_9 as B9.
  destruct (wb_large L HL) as (B1 & B2 & A1 & A2 & D1 & D2). assert (HL' := HL). unfold reach_max in HL. assert (P : 0 < L) by lra. set (s := L * L) in *. assert (S : 8999 / 1000 <= s <= 9873 / 1000) by (unfold s; nra).
  destruct (wk_bounds L ltac:(lra)) as [K0 K1]. fold s in K0, K1. pose proof (wk_first L ltac:(lra)) as KF. fold s in KF. destruct fhalf_val as [Fh Vh].
  assert (I3 : / L <= 334 / 1000) by (apply Rmult_le_reg_l with L; [exact P|]; rewrite Rinv_r; lra).
  assert (b0 : Rabs (val b - wb L) <= 464 / 100 * u).
  { apply Rmult_le_reg_r with L; [exact P|]. eapply Rle_trans; [exact Eb|]. unfold Rdiv. assert (203 * / 100 * / L <= 203 * / 100 * (334 / 1000)) by (apply Rmult_le_compat_l; lra). apply Rle_trans with (139 / 10 * u); [apply Rmult_le_compat_r; lra|]. nra. }
  assert (b1 : Rabs (val b) <= 1 / 4) by (apply Rabs_le; apply Rabs_le_inv in b0; rewrite u_num in *; lra). assert (a1 : Rabs (val a) <= 51 / 100) by (apply Rabs_le; apply Rabs_le_inv in Ea; rewrite u_num in *; lra).
  destruct (mul_error fhalf a Fh Fa) as [F1 X1]; [rewrite Vh, Rabs_mult, (Rabs_right (/ 2)) by lra; lra|]. rewrite Vh in X1. set (p := fmul fhalf a) in *.
  assert (aa : Rabs (/ 2 * val a) <= 26 / 100) by (rewrite Rabs_mult, (Rabs_right (/ 2)) by lra; lra).
  assert (p0 : Rabs (val p - wa L / 2) <= 5 * u). { replace (val p - wa L / 2) with ((val p - / 2 * val a) + (val a - wa L) / 2) by field. eapply Rle_trans; [apply Rabs_triang|]. unfold Rdiv. rewrite (Rabs_mult _ (/ 2)), (Rabs_right (/ 2)) by lra. rewrite u_num in *. lra. }
  assert (p1 : Rabs (val p) <= 27 / 100) by (pose proof (off_bound _ _ _ _ X1 aa); rewrite u_num in *; lra).
  assert (n0 : Rabs (val b - val p) <= 52 / 100) by (replace (val b - val p) with (val b + - val p) by ring; eapply Rle_trans; [apply Rabs_triang|]; rewrite Rabs_Ropp; lra).
  destruct (sub_error b p Fb F1) as [F2 X2]; [lra|]. set (n := fsub b p) in *.
  assert (n1 : Rabs (val n - (wb L - wa L / 2)) <= 102 / 10 * u).
  { replace (val n - (wb L - wa L / 2)) with ((val n - (val b - val p)) + ((val b - wb L) + - (val p - wa L / 2))) by ring. eapply Rle_trans; [apply Rabs_triang|]. eapply Rle_trans; [apply Rplus_le_compat_l, Rabs_triang|]. rewrite Rabs_Ropp. rewrite u_num in *. lra. }
  assert (z1 : 0 <= val z <= 99 / 10) by (apply Rabs_le_inv in Ez; rewrite u_num in *; lra).
  assert (bz : Rabs (val b * val z - wb L * s) <= 52 * u).
  { replace (val b * val z - wb L * s) with ((val b - wb L) * val z + wb L * (val z - s)) by ring. eapply Rle_trans; [apply Rabs_triang|]. rewrite !Rabs_mult, (Rabs_right (val z)), (Rabs_right (wb L)) by lra.
    assert (Rabs (val b - wb L) * val z <= 464 / 100 * u * (99 / 10)) by (apply Rmult_le_compat; try lra; apply Rabs_pos).
    assert (wb L * Rabs (val z - s) <= wb L * (302 / 100 * u * s)) by (apply Rmult_le_compat_l; lra). replace (wb L * (302 / 100 * u * s)) with (302 / 100 * u * (wb L * s)) in * by ring.
    assert (302 / 100 * u * (wb L * s) <= 302 / 100 * u * 2) by (apply Rmult_le_compat_l; lra). lra. }
  assert (bz1 : Rabs (val b * val z) <= 201 / 100) by (pose proof (off_bound _ _ _ 2 bz ltac:(rewrite Rabs_right; lra)); rewrite u_num in *; lra).
  destruct (mul_error b z Fb Fz) as [F3 X3]; [lra|]. set (q := fmul b z) in *.
  assert (q0 : Rabs (val q - wb L * s) <= 55 * u) by (replace (val q - wb L * s) with ((val q - val b * val z) + (val b * val z - wb L * s)) by ring; eapply Rle_trans; [apply Rabs_triang|]; rewrite u_num in *; lra).
  assert (qp : 0 < val q) by (apply Rabs_le_inv in q0; rewrite u_num in *; lra).
  assert (QN : Rabs (val n / val q * s - wk L * s) <= 98 * u).
  { eapply Rle_trans; [apply (quotient_near (val n) (val q) s ((wb L - wa L / 2) * s) (wb L * s) (wk L * s) (102 / 10 * u * s) (55 * u)); try lra|].
    - rewrite <- KF. ring.
    - replace (val n * s - (wb L - wa L / 2) * s) with ((val n - (wb L - wa L / 2)) * s) by ring. rewrite abs_scale by lra. apply Rmult_le_compat_r; lra.
    - rewrite u_num. lra.
    - rewrite (Rabs_right (wk L * s)) by lra. unfold Rdiv at 1. apply Rle_trans with ((101 * u + 56 * u) * / (196 / 100)); [|lra].
      apply Rmult_le_compat; [nra|left; apply Rinv_0_lt_compat; rewrite u_num; lra|apply Rplus_le_compat; [nra|nra]|apply Rinv_le_contravar; [lra|rewrite u_num; lra]]. }
  assert (QB : Rabs (val n / val q) * s <= 101 / 100) by (rewrite <- abs_scale by lra; pose proof (off_bound _ _ _ (1 + / 1000) QN ltac:(rewrite Rabs_right; lra)); rewrite u_num in *; lra).
  destruct (div_error n q F2 ltac:(lra)) as [Fk Xk]; [pose proof (Rabs_pos (val n / val q)); nra|]. fold k in Fk, Xk. split; [exact Fk|].
  rewrite <- abs_scale by lra. replace ((val k - wk L) * s) with ((val k - val n / val q) * s + (val n / val q * s - wk L * s)) by ring.
  eapply Rle_trans; [apply Rabs_triang|]. rewrite abs_scale by lra. apply (Rmult_le_compat_r s) in Xk; [|lra].
  assert (h * s <= u / 1000) by (rewrite u_num in *; nra). replace ((u * Rabs (val n / val q) + h) * s) with (u * (Rabs (val n / val q) * s) + h * s) in Xk by ring.
  assert (u * (Rabs (val n / val q) * s) <= u * (101 / 100)) by (apply Rmult_le_compat_l; lra). lra.
Qed.

(** The sum written for small angles. *)
Definition tk (s : R) : R := 1 / 12 + s * (1 / 720 + s + 1 / 30240).
Lemma tk_near L : 0 < L -> L * L <= 4002 / 10 ^ 9 -> Rabs (tk (L * L) - wk L) <= 153 / 10 ^ 12.
Proof.
  intros P B. destruct (polynomials L P B) as (XA & XB & XC). assert (LL : 0 < L * L) by nra. pose proof PI_bounds as PB. assert (L1 : L <= / 100) by nra. pose proof (wk_second L ltac:(lra)) as KS.
  destruct (wk_small L ltac:(unfold reach_max; lra)) as [K0 K1]. set (s := L * L) in *. assert (s2 : 0 <= s * s <= 4002 / 10 ^ 9 * s) by nra. assert (s3 : 0 <= s * s * s <= 17 / 10 ^ 12 * s) by nra. assert (s4 : 0 <= s * s * s * s <= s * s * s) by nra. assert (s5 : 0 <= s * s * s * s * s <= s * s * s * s) by nra.
  assert (A9 : 99 / 100 <= wa L). { unfold tc in XA. apply Rabs_le_inv in XA. rewrite u_num in *. nra. }
  assert (T : Rabs (tk s) <= / 11) by (apply Rabs_le; unfold tk; nra).
  assert (M : Rabs ((tk s - wk L) * wa L) <= 1503 / 10 ^ 13).
  { replace ((tk s - wk L) * wa L) with ((tk s * (1 - s * tc s) - (tb s / 2 - tc s)) + (- (tk s * (1 - s * tc s - wa L)) + ((tb s - wb L) / 2 + - (tc s - wc L)))) by (rewrite Rmult_minus_distr_r, KS; field).
    assert (Rabs (tk s * (1 - s * tc s) - (tb s / 2 - tc s)) <= 1501 / 10 ^ 13).
    { apply Rabs_le. replace (tk s * (1 - s * tc s) - (tb s / 2 - tc s)) with (s / 30240 + s * s * (1 + 1 / 1440 - 1 / 2016 - (1 / 720 + 1 / 30240) / 6) + s * s * s * ((1 / 720 + 1 / 30240) / 120 - 1 / 6 - 1 / (12 * 5040)) + s * s * s * s * (1 / 120 - (1 / 720 + 1 / 30240) / 5040) - s * s * s * s * s / 5040) by (unfold tk, tc, tb; field). lra. }
    eapply Rle_trans; [apply Rabs_triang|]. eapply Rle_trans; [apply Rplus_le_compat_l, Rabs_triang|]. eapply Rle_trans; [apply Rplus_le_compat_l, Rplus_le_compat_l, Rabs_triang|]. rewrite !Rabs_Ropp. replace (Rabs ((tb s - wb L) / 2)) with (Rabs (tb s - wb L) / 2) by (unfold Rdiv; rewrite Rabs_mult, (Rabs_right (/ 2)) by lra; reflexivity). rewrite (Rabs_mult (tk s)).
    assert (Rabs (tk s) * Rabs (1 - s * tc s - wa L) <= / 11 * (u / 100)) by (apply Rmult_le_compat; try apply Rabs_pos; assumption). rewrite u_num in *. lra. }
  rewrite abs_scale in M by lra. pose proof (Rabs_pos (tk s - wk L)). nra.
Qed.
Lemma coeff_tiny L z : 0 <= L -> L * L <= 4002 / 10 ^ 9 -> finite z -> 0 <= val z -> Rabs (val z - L * L) <= 301 / 100 * u * (L * L) + 4 * h ->
  let k := fadd (fratio 1 12) (fmul z (fadd (fadd (fratio 1 720) z) (fratio 1 30240))) in
  finite k /\ Rabs (val k - ck L) * (L * L) <= 6 * u /\ Rabs (val k - ck L) <= / 1000.
Proof.
  intros P B F Z E k. pose proof h_small_u as Hs. pose proof h_pos as Hp. pose proof u_pos as Up. assert (LL : 0 <= L * L) by nra.
  assert (A : ap z (L * L) (u / 100)) by (split; [exact F|]; eapply Rle_trans; [exact E|]; rewrite u_num in *; lra). set (s := L * L) in *.
  assert (Q1 : ap (fratio 1 12) (1 / 12) (u / 10)) by (eapply ap_weaken; [apply ratio_near; lia|rewrite u_num in *; lra]).
  assert (Q2 : ap (fratio 1 720) (1 / 720) (u / 10)) by (eapply ap_weaken; [apply ratio_near; lia|rewrite u_num in *; lra]).
  assert (Q3 : ap (fratio 1 30240) (1 / 30240) (u / 10)) by (eapply ap_weaken; [apply ratio_near; lia|rewrite u_num in *; lra]).
  assert (R1 : ap (fadd (fratio 1 720) z) (1 / 720 + s) (u / 5)).
  { eapply ap_weaken; [apply (ap_add _ _ _ _ _ _ (/ 100) Q2 A); first [lra | rewrite u_num; lra | apply Rabs_le; lra]|]. rewrite u_num; lra. }
  assert (R2 : ap (fadd (fadd (fratio 1 720) z) (fratio 1 30240)) (1 / 720 + s + 1 / 30240) (u / 2)).
  { eapply ap_weaken; [apply (ap_add _ _ _ _ _ _ (/ 100) R1 Q3); first [lra | rewrite u_num; lra | apply Rabs_le; lra]|]. rewrite u_num; lra. }
  assert (R3 : ap (fmul z (fadd (fadd (fratio 1 720) z) (fratio 1 30240))) (s * (1 / 720 + s + 1 / 30240)) (u / 10)).
  { eapply ap_weaken; [apply (ap_mul _ _ _ _ _ _ (/ 1000) (/ 100) (/ 1000) A R2); first [lra | rewrite u_num; lra | apply Rabs_le; nra]|]. rewrite u_num in *; lra. }
  assert (R4 : ap k (tk s) u).
  { eapply ap_weaken; [apply (ap_add _ _ _ _ _ _ (/ 2) Q1 R3); first [lra | rewrite u_num; lra | apply Rabs_le; nra]|]. rewrite u_num in *; lra. }
  destruct R4 as [Fk Xk]. split; [exact Fk|].
  assert (T : Rabs (tk s - ck L) * s <= 56 / 10 * u).
  { unfold ck. destruct (Req_EM_T L 0) as [O|O]; [unfold s; rewrite O, !Rmult_0_r; lra|]. pose proof (tk_near L ltac:(lra) B) as X. fold s in X. apply Rle_trans with (153 / 10 ^ 12 * (4002 / 10 ^ 9)); [apply Rmult_le_compat; try apply Rabs_pos; assumption|]. rewrite u_num. lra. }
  assert (Rabs (val k - ck L) <= u + Rabs (tk s - ck L)) by (replace (val k - ck L) with ((val k - tk s) + (tk s - ck L)) by ring; eapply Rle_trans; [apply Rabs_triang|]; lra).
  split; [|assert (Rabs (tk s - ck L) <= / 2000); [|rewrite u_num in *; lra]; unfold ck; destruct (Req_EM_T L 0) as [O|O]; [replace s with 0 by (unfold s; rewrite O; ring); unfold tk; apply Rabs_le; lra|pose proof (tk_near L ltac:(lra) B) as X; fold s in X; lra]].
  apply Rle_trans with ((u + Rabs (tk s - ck L)) * s); [apply Rmult_le_compat_r; lra|]. assert (u * s <= u * (1 / 10)) by (apply Rmult_le_compat_l; lra). lra.
Qed.
