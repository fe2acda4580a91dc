(** Errors of scaling the derivatives of poses. *)
From Coq Require Import Reals Lra Lia List.
From Flocq Require Import Core BinarySingleNaN.
From Verif Require Import Cpp Vec RotSpec RotProofs CoeffProofs FloatModel FloatSpec FloatProofs NrmModel NrmSpec NrmProofs DriftModel DriftSpec DriftProofs SpinModel SpinSpec SpinProofs2 TwistProofs2 FtsModel FtsSpec FtsProofs FtsProofs2 FtsProofs4 FtsProofs5 FtcModel FtcSpec FtcProofs2 FpsModel FpsSpec FpcModel FpcSpec.
Local Open Scope R_scope.

Lemma range_100_200 d : / 2 ^ 100 <= d <= 2 ^ 100 -> / 2 ^ 200 <= d <= 2 ^ 200.
Proof.
  intros [L H]. assert (P : 2 ^ 100 <= 2 ^ 200) by (apply Rle_pow; [lra|lia]). assert (/ 2 ^ 200 <= / 2 ^ 100) by (apply Rinv_le; [apply pow_lt; lra|exact P]). lra.
Qed.
Lemma h_scaled_b d b : 0 <= d <= 2 ^ 100 -> / 2 ^ 400 <= b -> h * (d * d) <= u * u * b / 10 ^ 9 /\ h * d <= u * u * b / 10 ^ 9 /\ h <= u * u * b / 10 ^ 9.
Proof.
  intros D Bb. pose proof h_pos as Hp. assert (B : h * (2 ^ 100 * 2 ^ 100) <= u * u * b / 10 ^ 9).
  { apply Rle_trans with (u * u * / 2 ^ 400 / 10 ^ 9).
    - rewrite <- (bpow_pow 100), <- (bpow_pow 400), <- bpow_opp. unfold h. change (Z.of_nat 100) with 100%Z. change (- Z.of_nat 400)%Z with (-400)%Z. rewrite <- !bpow_plus. apply Rle_trans with (bpow radix2 (-140) * bpow radix2 (-400)); [rewrite <- bpow_plus; apply bpow_le; lia|].
      assert (bpow radix2 (-140) <= u * u / 10 ^ 9) by (rewrite u_num; change (bpow radix2 (-140)) with (/ 1393796574908163946345982392040522594123776); lra). pose proof (bpow_gt_0 radix2 (-400)) as G. revert G. generalize (bpow radix2 (-400)). intros g G. replace (u * u * g / 10 ^ 9) with (u * u / 10 ^ 9 * g) by (field). apply Rmult_le_compat_r; lra.
    - assert (0 < u * u) by (pose proof u_pos; apply Rmult_lt_0_compat; lra). assert (u * u * / 2 ^ 400 <= u * u * b) by (apply Rmult_le_compat_l; lra). lra. }
  assert (P : 1 <= 2 ^ 100) by (apply pow_R1_Rle; lra). assert (P2 : 1 * 2 ^ 100 <= 2 ^ 100 * 2 ^ 100) by (apply Rmult_le_compat_r; lra). assert (DD : d * d <= 2 ^ 100 * 2 ^ 100) by (apply Rmult_le_compat; lra).
  assert (h * (d * d) <= h * (2 ^ 100 * 2 ^ 100)) by (apply Rmult_le_compat_l; lra). assert (h * d <= h * (2 ^ 100 * 2 ^ 100)) by (apply Rmult_le_compat_l; lra). assert (h * 1 <= h * (2 ^ 100 * 2 ^ 100)) by (apply Rmult_le_compat_l; lra). repeat split; lra.
Qed.
Lemma normalized_parts e M d dt v a v0 a0 : nearly dt d 1 -> 0 <= e <= / 10 ^ 5 -> 0 < M -> h * d <= u * M / 10 ^ 9 -> h <= u * M / 10 ^ 9 ->
  2 * M / d <= 2 ^ 700 -> 2 * M / (d * d) <= 2 ^ 450 -> vec_within (e * M / d) v v0 -> vec_within (e * M / (d * d)) a a0 -> norm v0 <= M / d -> norm a0 <= M / (d * d) ->
  vec_within ((e + 5 * u) * M) (ftimes v dt) (vscale d v0) /\ vec_within ((e + 5 * u) * M) (ftimes (ftimes a dt) dt) (vscale (d * d) a0) /\ norm (vscale d v0) <= M /\ norm (vscale (d * d) a0) <= M.
Proof.
  intros NK He Mp Hd H1 Z1 Z2 (F1 & D1) (F2 & D2) V1 V2. destruct (nearly_bounds _ _ _ NK) as (Dp & _ & _ & _). pose proof u_pos as Up. pose proof h_pos as Hp. assert (U6 : u <= / 10 ^ 6) by (rewrite u_num; lra).
  assert (em : 0 <= e * M <= / 10 ^ 5 * M) by (split; [apply Rmult_le_pos; lra|apply Rmult_le_compat_r; lra]). assert (dd : 0 < d * d) by (apply Rmult_lt_0_compat; lra). assert (I0 : 0 < / d) by (apply Rinv_0_lt_compat; lra). assert (I2 : 0 < / (d * d)) by (apply Rinv_0_lt_compat; lra).
  assert (X1 : norm (vval v) <= (1 + e) * M / d). { pose proof (norm_near (vval v) v0). replace ((1 + e) * M / d) with (M / d + e * M / d) by (field; lra). lra. }
  assert (X2 : norm (vval a) <= (1 + e) * M / (d * d)). { pose proof (norm_near (vval a) a0). replace ((1 + e) * M / (d * d)) with (M / (d * d) + e * M / (d * d)) by (field; lra). lra. }
  assert (W1 : (1 + e) * M / d <= 2 * M / d) by (apply Rmult_le_compat_r; lra). assert (W2 : (1 + e) * M / (d * d) <= 2 * M / (d * d)) by (apply Rmult_le_compat_r; lra).
  assert (Y1 : d * norm (vval v) <= (1 + e) * M). { apply Rle_trans with (d * ((1 + e) * M / d)); [apply Rmult_le_compat_l; lra|right; field; lra]. }
  assert (Y2 : d * d * norm (vval a) <= (1 + e) * M). { apply Rle_trans with (d * d * ((1 + e) * M / (d * d))); [apply Rmult_le_compat_l; lra|right; field; lra]. }
  destruct (scaled_once dt d 1 v v0 _ NK F1 ltac:(lra) D1) as (G1 & E1 & _). destruct (scaled_twice dt d 1 a a0 _ NK F2 ltac:(lra) D2) as (G2 & E2).
  assert (um : 0 < u * M) by (apply Rmult_lt_0_compat; lra). assert (uem : u * (e * M) <= / 10 ^ 5 * (u * M)). { replace (/ 10 ^ 5 * (u * M)) with (u * (/ 10 ^ 5 * M)) by ring. apply Rmult_le_compat_l; lra. }
  assert (Q1 : (1 + 101 / 100) * u * (d * norm (vval v)) <= (1 + 101 / 100) * u * ((1 + e) * M)) by (apply Rmult_le_compat_l; lra). assert (Q2 : (1 + 101 / 100) * u * (201 / 100 * (d * d * norm (vval a))) <= (1 + 101 / 100) * u * (201 / 100 * ((1 + e) * M))) by (apply Rmult_le_compat_l; lra).
  replace (d * (e * M / d)) with (e * M) in E1 by (field; lra). replace (d * d * (e * M / (d * d))) with (e * M) in E2 by (field; lra).
  split; [split; [exact G1|lra]|]. split; [split; [exact G2|lra]|]. rewrite !norm_scale, !Rabs_right by lra. split.
  - apply Rle_trans with (d * (M / d)); [apply Rmult_le_compat_l; lra|right; field; lra].
  - apply Rle_trans with (d * d * (M / (d * d))); [apply Rmult_le_compat_l; lra|right; field; lra].
Qed.
Lemma inv_100 d : / 2 ^ 100 <= d <= 2 ^ 100 -> 0 < d /\ 0 < / d <= 2 ^ 100 /\ / d * / d <= 2 ^ 200.
Proof.
  intros [L H]. assert (P : 0 < / 2 ^ 100) by (apply Rinv_0_lt_compat, pow_lt; lra). assert (I0 : 0 < / d) by (apply Rinv_0_lt_compat; lra). assert (I1 : / d <= 2 ^ 100) by (rewrite <- (Rinv_inv (2 ^ 100)); apply Rinv_le; lra).
  split; [lra|]. split; [lra|]. replace (2 ^ 200) with (2 ^ 100 * 2 ^ 100) by (rewrite <- pow_add; reflexivity). apply Rmult_le_compat; lra.
Qed.
Lemma pnormalized_end e m b d dt f c : nearly dt d 1 -> / 2 ^ 100 <= d <= 2 ^ 100 -> pstored e m b d f c -> 0 <= e <= / 10 ^ 5 -> u <= m <= 10 ^ 12 -> / 2 ^ 400 <= b <= 2 ^ 200 ->
  pose_end_near (e + 5 * u) m b (fpnormalized (fppoint f) dt) (flight_units d (pat_flight c)).
Proof.
  intros NK Dr (Ft & Vt & (J & (F0 & D0) & J1 & J2) & V1 & V2 & N0 & N1 & N2) He Hm Hb. pose proof u_pos as Up.
  pose proof (normalized_end e m d dt (FTControl (fptime f) (jet_turns (fppoint f))) (Control (pat_time c) (spin (pat_flight c))) NK (conj Ft (conj Vt (conj J (conj V1 V2)))) He Hm) as (RE & RV & RA).
  assert (b0 : 0 < b) by (assert (0 < / 2 ^ 400) by (apply Rinv_0_lt_compat, pow_lt; lra); lra). assert (mb : 0 < m * b) by (apply Rmult_lt_0_compat; lra). assert (ub : 0 < u * b) by (apply Rmult_lt_0_compat; lra).
  destruct (inv_100 d Dr) as (Dp & (I0 & I1) & I2). destruct (h_scaled_b d b ltac:(lra) ltac:(lra)) as (_ & Hd & H1). assert (UM : u * u * b <= u * (m * b)). { replace (u * u * b) with (u * b * u) by ring. replace (u * (m * b)) with (u * b * m) by ring. apply Rmult_le_compat_l; lra. }
  assert (MB : 2 * (m * b) <= 2 ^ 41 * 2 ^ 200). { replace (2 * (m * b)) with (2 * m * b) by ring. apply Rmult_le_compat; lra. }
  assert (Z2 : 2 * (m * b) / (d * d) <= 2 ^ 450). { unfold Rdiv. rewrite Rinv_mult. apply Rle_trans with (2 ^ 41 * 2 ^ 200 * 2 ^ 200); [apply Rmult_le_compat; try lra; apply Rmult_le_pos; lra|]. rewrite <- !pow_add. apply Rle_pow; [lra|lia]. }
  assert (Z1 : 2 * (m * b) / d <= 2 ^ 700). { unfold Rdiv. apply Rle_trans with (2 ^ 41 * 2 ^ 200 * 2 ^ 100); [apply Rmult_le_compat; lra|]. rewrite <- !pow_add. apply Rle_pow; [lra|lia]. }
  destruct (normalized_parts e (m * b) d dt _ _ _ _ NK He mb ltac:(lra) ltac:(lra) Z1 Z2 J1 J2 N1 N2) as (T1 & T2 & S1 & S2).
  split; [split; [exact RE|]|]; cbn [fpnormalized flight_units pf pd pd2 fttimes ftrans_part spin place slide surge].
  - split; [split; [exact F0|lra]|]. split; [exact T1|exact T2].
  - split; [exact RV|]. split; [exact RA|]. split; [exact N0|]. split; [exact S1|exact S2].
Qed.
(** Scaling back. *)
Lemma unnormalized_parts k d v a v0 a0 E1 E2 S1 S2 : nearly k (/ d) 3 -> 0 < d -> S1 <= 2 ^ 700 -> S2 <= 2 ^ 450 -> vec_within E1 v v0 -> vec_within E2 a a0 -> norm v0 + E1 <= S1 -> norm a0 + E2 <= S2 ->
  vec_within ((E1 + 402 / 100 * (u * S1) + 2 * (h * d)) / d) (ftimes v k) (vscale (/ d) v0) /\
  vec_within ((E2 + 81 / 10 * (u * S2) + 5 * (h * (d * d) + h * d)) / (d * d)) (ftimes (ftimes a k) k) (vscale (/ d * / d) a0).
Proof.
  intros NK Dp Z1 Z2 (F1 & D1) (F2 & D2) V1 V2. pose proof u_pos as Up. pose proof h_pos as Hp.
  assert (X1 : norm (vval v) <= S1) by (pose proof (norm_near (vval v) v0); lra). assert (X2 : norm (vval a) <= S2) by (pose proof (norm_near (vval a) a0); lra).
  pose proof (norm_nonneg (vval v)) as n1. pose proof (norm_nonneg (vval a)) as n2.
  destruct (scaled_once k (/ d) 3 v v0 _ NK F1 ltac:(lra) D1) as (G1 & Q1 & _). destruct (scaled_twice k (/ d) 3 a a0 _ NK F2 ltac:(lra) D2) as (G2 & Q2).
  assert (I0 : 0 < / d) by (apply Rinv_0_lt_compat; lra). assert (I1 : 0 < / d * / d) by (apply Rmult_lt_0_compat; lra). assert (u1 : u * norm (vval v) <= u * S1) by (apply Rmult_le_compat_l; lra). assert (u2 : u * norm (vval a) <= u * S2) by (apply Rmult_le_compat_l; lra).
  assert (u10 : 0 <= u * norm (vval v)) by (apply Rmult_le_pos; lra). assert (u20 : 0 <= u * norm (vval a)) by (apply Rmult_le_pos; lra).
  split.
  - split; [exact G1|]. eapply Rle_trans; [exact Q1|]. replace (/ d * E1 + (3 + 101 / 100) * u * (/ d * norm (vval v)) + 2 * h) with (/ d * (E1 + (3 + 101 / 100) * (u * norm (vval v)) + 2 * (h * d))) by (field; lra). unfold Rdiv at 2. rewrite (Rmult_comm _ (/ d)). apply Rmult_le_compat_l; lra.
  - split; [exact G2|]. eapply Rle_trans; [exact Q2|]. replace (/ d * / d * E2 + (3 + 101 / 100) * u * (201 / 100 * (/ d * / d * norm (vval a))) + 5 * h * (1 + / d)) with (/ d * / d * (E2 + (3 + 101 / 100) * (201 / 100) * (u * norm (vval a)) + 5 * (h * (d * d) + h * d))) by (field; lra).
    replace ((E2 + 81 / 10 * (u * S2) + 5 * (h * (d * d) + h * d)) / (d * d)) with (/ d * / d * (E2 + 81 / 10 * (u * S2) + 5 * (h * (d * d) + h * d))) by (field; lra). apply Rmult_le_compat_l; lra.
Qed.
Lemma within_le d d' v w : vec_within d v w -> d <= d' -> vec_within d' v w.
Proof. intros [F D] H. split; [exact F|lra]. Qed.
Lemma punnormalized k d b f q X K : nearly k (/ d) 3 -> / 2 ^ 100 <= d <= 2 ^ 100 -> / 2 ^ 400 <= b <= 2 ^ 200 -> 1 <= K -> K * (105 * u) <= X -> X <= / 10 ^ 5 -> let L := K * b in
  pjet_within (79 * X) (340 * (X * K)) (2560 * (X * (K * K))) (576 * (X * L)) (1780 * (X * (L * K))) (14600 * (X * (L * (K * K)))) f q -> norm (vel (spin q)) <= 97 / 10 * K -> norm (acc (spin q)) <= 628 / 10 * (K * K) ->
  norm (slide q) <= 184 / 10 * (L * K) -> norm (surge q) <= 153 * (L * (K * K)) ->
  pjet_within (79 * X) (341 * (X * K) / d) (2565 * (X * (K * K)) / (d * d)) (576 * (X * L)) (1781 * (X * (L * K)) / d) (14620 * (X * (L * (K * K))) / (d * d)) (fpunnormalize k f) (flight_units (/ d) q).
Proof.
  intros NK Dr Hb K1 XL XH L (J & J0 & J1 & J2) V1 V2 N1 N2. pose proof u_pos as Up. assert (U6 : u <= / 10 ^ 6) by (rewrite u_num; lra).
  pose proof (unnormalized k d (jet_turns f) (spin q) X K NK (range_100_200 d Dr) K1 XL XH J V1 V2) as RJ.
  assert (b0 : 0 < b) by (assert (0 < / 2 ^ 400) by (apply Rinv_0_lt_compat, pow_lt; lra); lra). destruct (inv_100 d Dr) as (Dp & (I0 & I1) & I2). destruct (h_scaled_b d b ltac:(lra) ltac:(lra)) as (Hdd & Hd & _).
  assert (K10 : K <= 10 ^ 10). { assert (K * (105 * u) <= / 10 ^ 5) by lra. rewrite u_num in *. lra. }
  assert (L0 : b <= L). { unfold L. assert (1 * b <= K * b) by (apply Rmult_le_compat_r; lra). lra. } assert (LK : L <= L * K). { assert (L * 1 <= L * K) by (apply Rmult_le_compat_l; lra). lra. } assert (LKK : L * K <= L * (K * K)). { assert (1 * (L * K) <= K * (L * K)) by (apply Rmult_le_compat_r; lra). lra. }
  assert (X0 : 0 < K * (105 * u)) by (apply Rmult_lt_0_compat; lra).
  assert (P1 : X * (L * K) <= / 10 ^ 5 * (L * K)) by (apply Rmult_le_compat_r; lra). assert (P2 : X * (L * (K * K)) <= / 10 ^ 5 * (L * (K * K))) by (apply Rmult_le_compat_r; lra).
  assert (B30 : L * (K * K) <= 2 ^ 100 * 2 ^ 200). { unfold L. replace (K * b * (K * K)) with (K * (K * K) * b) by ring. apply Rmult_le_compat; try lra; [repeat apply Rmult_le_pos; lra|]. apply Rle_trans with (10 ^ 10 * (10 ^ 10 * 10 ^ 10)); [|lra]. apply Rmult_le_compat; try lra; [apply Rmult_le_pos; lra|apply Rmult_le_compat; lra]. }
  rewrite <- pow_add in B30. change (100 + 200)%nat with 300%nat in B30. assert (B4 : 200 * 2 ^ 300 <= 2 ^ 450). { apply Rle_trans with (2 ^ 8 * 2 ^ 300); [apply Rmult_le_compat_r; [apply pow_le; lra|lra]|]. rewrite <- pow_add. apply Rle_pow; [lra|lia]. } assert (B7 : 2 ^ 450 <= 2 ^ 700) by (apply Rle_pow; [lra|lia]).
  destruct (unnormalized_parts k d _ _ _ _ _ _ (185 / 10 * (L * K)) (1532 / 10 * (L * (K * K))) NK Dp ltac:(lra) ltac:(lra) J1 J2 ltac:(lra) ltac:(lra)) as [T1 T2].
  assert (uX1 : 105 * (u * (L * K)) <= X * (L * K)). { replace (105 * (u * (L * K))) with (105 * u * (L * K)) by ring. apply Rmult_le_compat_r; [lra|]. assert (1 * (105 * u) <= K * (105 * u)) by (apply Rmult_le_compat_r; lra). lra. }
  assert (uX2 : 105 * (u * (L * (K * K))) <= X * (L * (K * K))). { replace (105 * (u * (L * (K * K)))) with (105 * u * (L * (K * K))) by ring. apply Rmult_le_compat_r; [lra|]. assert (1 * (105 * u) <= K * (105 * u)) by (apply Rmult_le_compat_r; lra). lra. }
  assert (ub1 : u * u * b <= u * (L * K)). { rewrite Rmult_assoc. apply Rmult_le_compat_l; [lra|]. assert (u * b <= 1 * b) by (apply Rmult_le_compat_r; lra). lra. } assert (ub2 : u * (L * K) <= u * (L * (K * K))) by (apply Rmult_le_compat_l; lra).
  assert (uL : 0 <= u * (L * K)) by (apply Rmult_le_pos; lra).
  split; [exact RJ|]; cbn [fpunnormalize flight_units pf pd pd2 fttimes ftrans_part spin place slide surge].
  split; [exact J0|]. split.
  - eapply within_le; [exact T1|]. apply Rmult_le_compat_r; lra.
  - eapply within_le; [exact T2|]. apply Rmult_le_compat_r; [rewrite Rinv_mult; apply Rmult_le_pos; lra|lra].
Qed.
