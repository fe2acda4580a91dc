(** The coefficient of SE3::log in double precision. *)
From Coq Require Import Reals Psatz ZArith.
From Flocq Require Import Core BinarySingleNaN.
From Verif Require Import Cpp FloatModel FloatSpec NrmSpec Vec RotSpec ScrewSpec CoeffProofs FloatProofs NrmProofs DriftModel DriftSpec DriftProofs DriftProofs2 SpinModel SpinSpec SpinProofs SpinProofs2 TwistModel TwistProofs TwistProofs2 TlogModel TlogProofs2 TlogProofs4 SlogModel SlogProofs.
Local Open Scope R_scope.

Lemma div_error a b : finite a -> val b <> 0 -> Rabs (val a / val b) <= 2 ^ 1000 ->
  finite (fdivide a b) /\ Rabs (val (fdivide a b) - val a / val b) <= u * Rabs (val a / val b) + h.
Proof.
  intros A B H. destruct (fdiv_val a b A B) as [F V]; [apply no_overflow; destruct big_1000; lra|]. split; [exact F|]. rewrite V. apply rd_any.
Qed.
Lemma PI_low : 31 / 10 < PI.
Proof.
  destruct (Rlt_or_le (31 / 10) PI) as [|C]; [assumption|]. exfalso. pose proof PI_bounds.
  assert (B : 0 <= 155 / 100 <= 2) by lra. destruct (cos_bounds _ B) as [H' _]. unfold cos6 in H'.
  assert (cos (155 / 100) <= 0) by (apply cos_le_0; lra). lra.
Qed.
Lemma big_9 : 1000000000 <= 2 ^ 1000.
Proof. apply Rle_trans with (2 ^ 30); [lra|apply Rle_pow; [lra|lia]]. Qed.
(** A quotient near a quotient, times [s]. *)
Lemma quotient_near n q s N D K dn dq : 0 < D -> N = K * D -> Rabs (n * s - N) <= dn -> Rabs (q - D) <= dq -> dq < D -> Rabs (n / q * s - K) <= (dn + Rabs K * dq) / (D - dq).
Proof.
  intros PD EN HN HQ Hd. assert (Q : D - dq <= q) by (apply Rabs_le_inv in HQ; lra). assert (0 < D - dq) by lra.
  assert (E : n / q * s - K = ((n * s - N) - K * (q - D)) / q) by (rewrite EN; field; lra). rewrite E. unfold Rdiv. rewrite Rabs_mult, Rabs_inv, (Rabs_right q) by lra.
  assert (Rabs (n * s - N - K * (q - D)) <= dn + Rabs K * dq).
  { replace (n * s - N - K * (q - D)) with ((n * s - N) + - (K * (q - D))) by ring. eapply Rle_trans; [apply Rabs_triang|]. rewrite Rabs_Ropp, Rabs_mult. apply Rplus_le_compat; [exact HN|]. apply Rmult_le_compat_l; [apply Rabs_pos|exact HQ]. }
  apply Rmult_le_compat; [apply Rabs_pos|left; apply Rinv_0_lt_compat; lra|assumption|]. apply Rinv_le_contravar; lra.
Qed.

Lemma coeff_middle L a b c A : 19 / 10000 <= L <= 30001 / 10000 -> 43 / 1000 <= A <= wa L -> finite a -> finite b -> finite c ->
  Rabs (val a - wa L) <= 94 / 10 * u -> Rabs (val b - wb L) * L <= (132 / 10 + 203 / 100 / L) * u -> Rabs (val c - wc L) * (L * L) <= 235 / 10 * u ->
  let k := fdivide (fsub (fmul b fhalf) c) a in finite k /\ Rabs (val k - wk L) * (L * L) <= (58 / A + 2) * u.
Proof.
  intros HL HA Fa Fb Fc Ea Eb Ec k. pose proof PI_bounds as PB. pose proof PI_low as PL. pose proof h_pos as Hp. pose proof h_small_u as Hs. pose proof u_pos as Up. pose proof big_9 as B9.
  assert (P : 0 < L) by lra. set (s := L * L) in *. assert (S : 0 < s <= 9001 / 1000) by (unfold s; nra). assert (S5 : / 300000 <= s) by (unfold s; nra).
  destruct (wb_bound L P) as [_ [Wb0 Wb1]]. destruct (wc_bound L P) as (Tc & [Wc0 Wc1] & [Wc2 Wc3]). destruct (wa_bound L P) as [Wa1 _]. fold s in Tc, Wc0, Wc1.
  assert (Wbs : wb L * s <= 2) by (replace (wb L * s) with (1 - cos L) by (unfold wb, s; field; lra); pose proof (COS_bound L); lra).
  destruct fhalf_val as [Fh Vh].
  assert (LL : L * / L = 1) by (apply Rinv_r; lra). assert (I5 : / L <= 527) by (apply Rmult_le_reg_l with L; [exact P|]; rewrite LL; lra).
  (* b s *)
  assert (Bs : Rabs (val b - wb L) * s <= (132 / 10 * L + 203 / 100) * u).
  { unfold s. rewrite <- Rmult_assoc. apply Rle_trans with ((132 / 10 + 203 / 100 / L) * u * L); [apply Rmult_le_compat_r; lra|]. right. field. lra. }
  assert (Bs' : Rabs (val b - wb L) * s <= 42 * u) by (eapply Rle_trans; [exact Bs|]; rewrite u_num; lra).
  assert (b1 : Rabs (val b - wb L) <= / 1000) by (apply Rmult_le_reg_r with s; [lra|]; rewrite u_num in *; lra).
  assert (c1 : Rabs (val c - wc L) <= / 1000) by (apply Rmult_le_reg_r with s; [lra|]; rewrite u_num in *; lra).
  assert (b2 : Rabs (val b) <= 1) by (apply Rabs_le; apply Rabs_le_inv in b1; lra). assert (c2 : Rabs (val c) <= 1) by (apply Rabs_le; apply Rabs_le_inv in c1; lra).
  destruct (mul_error b fhalf Fb Fh) as [F1 X1]; [rewrite Vh, Rabs_mult, (Rabs_right (/ 2)) by lra; lra|]. rewrite Vh in X1. set (b' := fmul b fhalf) in *.
  assert (bb : Rabs (val b * / 2) <= 1 / 2) by (rewrite Rabs_mult, (Rabs_right (/ 2)) by lra; lra).
  assert (b3 : Rabs (val b') <= 1) by (pose proof (off_bound _ _ _ _ X1 bb); rewrite u_num in *; lra).
  assert (D0 : Rabs (val b' - val c) <= 2) by (replace (val b' - val c) with (val b' + - val c) by ring; eapply Rle_trans; [apply Rabs_triang|]; rewrite Rabs_Ropp; lra).
  destruct (sub_error b' c F1 Fc) as [F2 X2]; [lra|]. set (d := fsub b' c) in *.
  (* scaled by s *)
  assert (Y1 : Rabs (val b' * s - wb L / 2 * s) <= 21 * u + (132 / 10 * L + 203 / 100 - 42) / 2 * u + 11 / 10 * u).
  { replace (val b' * s - wb L / 2 * s) with ((val b' - val b * / 2) * s + (val b - wb L) * s / 2) by field. eapply Rle_trans; [apply Rabs_triang|].
    assert (Rabs ((val b - wb L) * s / 2) <= (132 / 10 * L + 203 / 100) * u / 2) by (unfold Rdiv; rewrite !Rabs_mult, (Rabs_right s), (Rabs_right (/ 2)) by lra; lra).
    assert (Rabs ((val b' - val b * / 2) * s) <= 11 / 10 * u); [|lra]. rewrite abs_scale by lra. apply Rle_trans with ((u * Rabs (val b * / 2) + h) * s); [apply Rmult_le_compat_r; lra|].
    replace ((u * Rabs (val b * / 2) + h) * s) with (u * (Rabs (val b) * s) / 2 + h * s) by (rewrite Rabs_mult, (Rabs_right (/ 2)) by lra; field).
    assert (Rabs (val b) * s <= 2 + 42 * u). { rewrite <- abs_scale by lra. apply (off_bound _ (wb L * s)); [replace (val b * s - wb L * s) with ((val b - wb L) * s) by ring; rewrite abs_scale by lra; exact Bs'|rewrite Rabs_right; nra]. }
    assert (h * s <= u / 1000) by (rewrite u_num in *; nra). rewrite u_num in *. lra. }
  assert (Y2 : Rabs (val c * s - wc L * s) <= 235 / 10 * u) by (replace (val c * s - wc L * s) with ((val c - wc L) * s) by ring; rewrite abs_scale by lra; exact Ec).
  assert (W0 : 0 <= wb L / 2 * s <= 1) by (split; [apply Rmult_le_pos; lra|lra]).
  assert (N1 : Rabs ((val b' - val c) * s) <= 234 / 100).
  { replace ((val b' - val c) * s) with (val b' * s + - (val c * s)) by ring. eapply Rle_trans; [apply Rabs_triang|]. rewrite Rabs_Ropp.
    pose proof (off_bound _ _ _ 1 Y1 ltac:(rewrite Rabs_right; lra)). pose proof (off_bound _ _ _ (4 / 3) Y2 ltac:(rewrite Rabs_right; lra)). rewrite u_num in *. lra. }
  assert (Y3 : Rabs (val d * s - (wb L / 2 - wc L) * s) <= 48 * u).
  { replace (val d * s - (wb L / 2 - wc L) * s) with ((val d - (val b' - val c)) * s + ((val b' * s - wb L / 2 * s) + - (val c * s - wc L * s))) by ring.
    eapply Rle_trans; [apply Rabs_triang|]. eapply Rle_trans; [apply Rplus_le_compat_l, Rabs_triang|]. rewrite Rabs_Ropp, abs_scale by lra.
    assert (Rabs (val d - (val b' - val c)) * s <= 235 / 100 * u). { apply Rle_trans with (u * Rabs (val b' - val c) * s); [apply Rmult_le_compat_r; lra|]. rewrite Rmult_assoc, <- abs_scale by lra. rewrite u_num in *. lra. }
    rewrite u_num in *. lra. }
  destruct (wk_bounds L ltac:(unfold reach_max; lra)) as [K0 K1]. fold s in K0, K1. pose proof (wk_second L ltac:(lra)) as KS.
  assert (A9 : 94 / 10 * u <= A / 1000) by (rewrite u_num; lra).
  assert (a0 : 0 < val a) by (apply Rabs_le_inv in Ea; rewrite u_num in *; lra).
  assert (QN : Rabs (val d / val a * s - wk L * s) <= 576 / 10 * u / A).
  { eapply Rle_trans; [apply (quotient_near (val d) (val a) s ((wb L / 2 - wc L) * s) (wa L) (wk L * s) (48 * u) (94 / 10 * u)); try assumption; try lra; rewrite <- KS; ring|].
    rewrite (Rabs_right (wk L * s)) by lra. unfold Rdiv at 1. apply Rle_trans with ((48 * u + (1 + / 1000) * (94 / 10 * u)) * / (A * (999 / 1000))).
    - apply Rmult_le_compat; [nra|left; apply Rinv_0_lt_compat; lra|nra|apply Rinv_le_contravar; lra].
    - rewrite Rinv_mult by lra. unfold Rdiv. assert (0 < / A) by (apply Rinv_0_lt_compat; lra). rewrite u_num. nra. }
  assert (A23 : / A <= 24) by (apply Rmult_le_reg_l with A; [lra|]; rewrite Rinv_r; lra).
  assert (QB : Rabs (val d / val a) * s <= 101 / 100).
  { rewrite <- abs_scale by lra. pose proof (off_bound _ _ _ (1 + / 1000) QN ltac:(rewrite Rabs_right; lra)) as O. eapply Rle_trans; [exact O|]. unfold Rdiv. assert (576 * / 10 * u * / A <= 576 * / 10 * u * 24) by (apply Rmult_le_compat_l; lra). rewrite u_num in *. lra. }
  destruct (div_error d a F2 ltac:(lra)) as [Fk Xk]; [apply Rmult_le_reg_r with s; [lra|]; eapply Rle_trans; [exact QB|]; assert (1000000000 * / 300000 <= 2 ^ 1000 * s) by (apply Rmult_le_compat; lra); lra|].
  fold k in Fk, Xk. split; [exact Fk|]. rewrite <- abs_scale by lra. replace ((val k - wk L) * s) with ((val k - val d / val a) * s + (val d / val a * s - wk L * s)) by ring.
  eapply Rle_trans; [apply Rabs_triang|]. rewrite abs_scale by lra. apply (Rmult_le_compat_r s) in Xk; [|lra].
  assert (h * s <= u / 1000) by (rewrite u_num in *; nra). replace ((u * Rabs (val d / val a) + h) * s) with (u * (Rabs (val d / val a) * s) + h * s) in Xk by ring.
  assert (u * (Rabs (val d / val a) * s) <= u * (101 / 100)) by (apply Rmult_le_compat_l; lra). replace ((58 / A + 2) * u) with (58 * u / A + 2 * u) by (field; lra).
  assert (576 / 10 * u / A <= 58 * u / A) by (unfold Rdiv; apply Rmult_le_compat_r; [left; apply Rinv_0_lt_compat; lra|lra]). lra.
Qed.
