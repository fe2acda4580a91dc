(** Bounds of the Hermite polynomials and their derivatives. *)
From Coq Require Import Reals Lra Lia Psatz.
From Verif Require Import QfSpec.
Local Open Scope R_scope.

Lemma bump t : 0 <= t <= 1 -> 0 <= t * (1 - t) <= 1 / 4.
Proof. intro H. split; [apply Rmult_le_pos; lra|]. pose proof (pow2_ge_0 (t - 1 / 2)). lra. Qed.
Lemma bump_square t : 0 <= t <= 1 -> 0 <= t * (1 - t) ^ 2 <= 4 / 27.
Proof.
  intro H. pose proof (pow2_ge_0 (1 - t)). split; [apply Rmult_le_pos; lra|].
  assert (0 <= (t - 1 / 3) ^ 2 * (4 / 3 - t)) by (apply Rmult_le_pos; [apply pow2_ge_0|lra]). replace (4 / 27 - t * (1 - t) ^ 2) with ((t - 1 / 3) ^ 2 * (4 / 3 - t)) in * by field.
  assert (4 / 27 - t * (1 - t) ^ 2 = (t - 1 / 3) ^ 2 * (4 / 3 - t)) by field. lra.
Qed.
Lemma motion_bounds t : 0 <= t <= 1 -> 0 <= hermite WMotion t <= 1 /\ 0 <= hermite' WMotion t <= 15 / 8 /\ Rabs (hermite'' WMotion t) <= 6.
Proof.
  intro H. pose proof (bump t H) as S. set (s := t * (1 - t)) in *. split; [|split].
  - cbn [hermite]. split.
    + replace (10 * t ^ 3 - 15 * t ^ 4 + 6 * t ^ 5) with (t ^ 3 * (10 - 15 * t + 6 * t ^ 2)) by ring. apply Rmult_le_pos; [apply pow_le; lra|]. pose proof (pow2_ge_0 (t - 5 / 4)). lra.
    + assert (E : 1 - (10 * t ^ 3 - 15 * t ^ 4 + 6 * t ^ 5) = (1 - t) ^ 3 * (1 + 3 * t + 6 * t ^ 2)) by ring.
      assert (0 <= (1 - t) ^ 3 * (1 + 3 * t + 6 * t ^ 2)) by (apply Rmult_le_pos; [apply pow_le; lra|pose proof (pow2_ge_0 t); lra]). lra.
  - cbn [hermite']. replace (30 * t ^ 2 - 60 * t ^ 3 + 30 * t ^ 4) with (30 * (s * s)) by (unfold s; ring). assert (0 <= s * s <= 1 / 4 * (1 / 4)) by (split; [apply Rmult_le_pos; lra|apply Rmult_le_compat; lra]). lra.
  - cbn [hermite'']. apply Rabs_le. set (y := 60 * t - 180 * t ^ 2 + 120 * t ^ 3). assert (E : y ^ 2 = 3600 * (s ^ 2 * (1 - 4 * s))) by (unfold y, s; ring).
    assert (Q : s ^ 2 * (1 - 4 * s) <= 1 / 100). { assert (0 <= (s - 1 / 6) ^ 2 * (4 * s + 1 / 3)) by (apply Rmult_le_pos; [apply pow2_ge_0|lra]). assert (s ^ 2 * (1 - 4 * s) = 1 / 108 - (s - 1 / 6) ^ 2 * (4 * s + 1 / 3)) by field. lra. }
    assert (y ^ 2 <= 6 ^ 2) by lra. clearbody y. split; nra.
Qed.
Lemma velocity_bounds t : 0 <= t <= 1 -> Rabs (hermite WVelocityOrig t) <= 1 / 4 /\ Rabs (hermite' WVelocityOrig t) <= 1 /\ Rabs (hermite'' WVelocityOrig t) <= 4.
Proof.
  intro H. split; [|split]; apply Rabs_le.
  - cbn [hermite]. replace (t - 6 * t ^ 3 + 8 * t ^ 4 - 3 * t ^ 5) with ((t * (1 - t) ^ 2) * ((1 - t) * (1 + 3 * t))) by ring. pose proof (bump_square t H) as B.
    assert (0 <= (1 - t) * (1 + 3 * t) <= 4 / 3). { split; [apply Rmult_le_pos; lra|]. pose proof (pow2_ge_0 (t - 1 / 3)). lra. }
    assert (0 <= (t * (1 - t) ^ 2) * ((1 - t) * (1 + 3 * t)) <= 4 / 27 * (4 / 3)) by (split; [apply Rmult_le_pos; lra|apply Rmult_le_compat; lra]). lra.
  - cbn [hermite']. split.
    + assert (E : 1 - 18 * t ^ 2 + 32 * t ^ 3 - 15 * t ^ 4 = -1 + 488 / 1000 + (t - 3 / 5) ^ 2 * (-15 * t ^ 2 + 14 * t + 42 / 10)) by field.
      assert (0 <= (t - 3 / 5) ^ 2 * (-15 * t ^ 2 + 14 * t + 42 / 10)). { apply Rmult_le_pos; [apply pow2_ge_0|]. pose proof (bump t H). nra. }
      lra.
    + assert (0 <= t ^ 2 * (18 - 32 * t + 15 * t ^ 2)) by (apply Rmult_le_pos; [apply pow2_ge_0|]; pose proof (pow2_ge_0 (t - 16 / 15)); lra). lra.
  - cbn [hermite'']. set (y := -36 * t + 96 * t ^ 2 - 60 * t ^ 3). split.
    + assert (E : y + 4 = 60 * (t - 243 / 1000) ^ 2 * (1114 / 1000 - t) + (4 - 60 * (243 / 1000) ^ 2 * (1114 / 1000)) + (60 * ((243 / 1000) ^ 2 + 2 * (243 / 1000) * (1114 / 1000)) - 36) * t) by (unfold y; field).
      assert (0 <= 60 * (t - 243 / 1000) ^ 2 * (1114 / 1000 - t)) by (apply Rmult_le_pos; [apply Rmult_le_pos; [lra|apply pow2_ge_0]|lra]). lra.
    + assert (E : y = 12 * (t * (1 - t)) * (5 * t - 3)) by (unfold y; ring). pose proof (bump t H) as B.
      destruct (Rle_or_lt (5 * t - 3) 0) as [L|L]; [assert (0 <= 12 * (t * (1 - t)) * (3 - 5 * t)) by (apply Rmult_le_pos; lra); lra|].
      assert (t * (1 - t) * (5 * t - 3) <= 1 / 4 * (5 * t - 3)) by (apply Rmult_le_compat_r; lra). nra.
Qed.
Lemma acceleration_bounds t : 0 <= t <= 1 -> Rabs (hermite WAccelerationOrig t) <= 1 / 4 /\ Rabs (hermite' WAccelerationOrig t) <= 1 /\ Rabs (hermite'' WAccelerationOrig t) <= 1.
Proof.
  intro H. pose proof (bump_square t H) as B. pose proof (bump t H) as B1. split; [|split]; apply Rabs_le.
  - cbn [hermite]. replace ((t ^ 2 - 3 * t ^ 3 + 3 * t ^ 4 - t ^ 5) / 2) with ((t * (1 - t) ^ 2) * ((t * (1 - t)) / 2)) by field.
    assert (0 <= (t * (1 - t) ^ 2) * ((t * (1 - t)) / 2) <= 4 / 27 * (1 / 8)) by (split; [apply Rmult_le_pos; lra|apply Rmult_le_compat; lra]). lra.
  - cbn [hermite']. replace ((2 * t - 9 * t ^ 2 + 12 * t ^ 3 - 5 * t ^ 4) / 2) with ((t * (1 - t) ^ 2) * ((2 - 5 * t) / 2)) by field. set (k := t * (1 - t) ^ 2) in *. split; nra.
  - cbn [hermite'']. set (y := 1 - 9 * t + 18 * t ^ 2 - 10 * t ^ 3). split.
    + assert (E : y = (1 - t) * (10 * (t - 2 / 5) ^ 2 - 3 / 5)) by (unfold y; field). assert (0 <= (1 - t) * (10 * (t - 2 / 5) ^ 2)) by (apply Rmult_le_pos; [lra|pose proof (pow2_ge_0 (t - 2 / 5)); lra]). lra.
    + assert (E : y = 1 - t * (10 * (t - 9 / 10) ^ 2 + 9 / 10)) by (unfold y; field). assert (0 <= t * (10 * (t - 9 / 10) ^ 2 + 9 / 10)) by (apply Rmult_le_pos; [lra|pose proof (pow2_ge_0 (t - 9 / 10)); lra]). lra.
Qed.
(** The other end is the mirror image. *)
Lemma mirror t : hermite WVelocityDest t = - hermite WVelocityOrig (1 - t) /\ hermite' WVelocityDest t = hermite' WVelocityOrig (1 - t) /\ hermite'' WVelocityDest t = - hermite'' WVelocityOrig (1 - t) /\
  hermite WAccelerationDest t = hermite WAccelerationOrig (1 - t) /\ hermite' WAccelerationDest t = - hermite' WAccelerationOrig (1 - t) /\ hermite'' WAccelerationDest t = hermite'' WAccelerationOrig (1 - t).
Proof. cbn [hermite hermite' hermite'']. repeat split; field. Qed.
Lemma derivative_bounds w t : w <> WMotion -> 0 <= t <= 1 -> Rabs (hermite w t) <= 1 / 4 /\ Rabs (hermite' w t) <= 1 /\ Rabs (hermite'' w t) <= 4.
Proof.
  intros N H. destruct (mirror t) as (E1 & E2 & E3 & E4 & E5 & E6). pose proof (velocity_bounds t H). pose proof (velocity_bounds (1 - t) ltac:(lra)). pose proof (acceleration_bounds t H). pose proof (acceleration_bounds (1 - t) ltac:(lra)).
  destruct w; [congruence| | | |]; rewrite ?E1, ?E2, ?E3, ?E4, ?E5, ?E6, ?Rabs_Ropp; repeat split; try tauto; lra.
Qed.
