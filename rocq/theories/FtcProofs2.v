(** Errors of scaling the derivatives. *)
From Coq Require Import Reals Lra Lia List.
From Flocq Require Import Core BinarySingleNaN.
From Verif Require Import Cpp Vec RotSpec RotProofs CoeffProofs FloatModel FloatSpec FloatProofs NrmModel NrmSpec NrmProofs DriftModel DriftSpec DriftProofs SpinModel SpinSpec SpinProofs2 TwistProofs2 FtsModel FtsSpec FtsProofs FtsProofs2 FtsProofs4 FtsProofs5 FtcModel FtcSpec.
Local Open Scope R_scope.

Lemma ftimes_near v k : finite k -> vfinite v -> Rabs (val k) <= 2 ^ 250 -> norm (vval v) <= 2 ^ 700 ->
  vfinite (ftimes v k) /\ norm (vsub (vval (ftimes v k)) (vscale (val k) (vval v))) <= u * Rabs (val k) * norm (vval v) + 2 * h.
Proof.
  intros F (X & Y & Z) B N. destruct (entry_norm (vval v)) as (Bx & By & Bz). cbn [vval vx vy vz] in Bx, By, Bz. pose proof u_pos as Up. pose proof h_pos as Hp.
  assert (K : forall x, Rabs (val x) <= norm (vval v) -> Rabs (val x * val k) <= 2 ^ 1000).
  { intros x Bx'. rewrite Rabs_mult. apply Rle_trans with (2 ^ 700 * 2 ^ 250); [apply Rmult_le_compat; try apply Rabs_pos; lra|]. rewrite <- pow_add. apply Rle_pow; [lra|lia]. }
  destruct (mul_error (fx v) k X F (K _ Bx)) as [G1 D1]. destruct (mul_error (fy v) k Y F (K _ By)) as [G2 D2]. destruct (mul_error (fz v) k Z F (K _ Bz)) as [G3 D3].
  split; [repeat split; assumption|].
  apply Rle_trans with (norm (vadd (vscale (u * Rabs (val k)) (vabs (vval v))) (vscale h (V3 1 1 1)))).
  - rewrite (Rmult_comm (val (fx v))) in D1. rewrite (Rmult_comm (val (fy v))) in D2. rewrite (Rmult_comm (val (fz v))) in D3.
    apply norm_mono; unfold ftimes, vadd, vsub, vscale, vabs, vval; cbn [vx vy vz fx fy fz]; rewrite Rmult_1_r, Rmult_assoc, <- Rabs_mult; assumption.
  - eapply Rle_trans; [apply norm_triangle|]. rewrite !norm_scale, norm_vabs.
    assert (norm (V3 1 1 1) <= 2). { unfold norm. rewrite <- (sqrt_square 2) by lra. apply sqrt_le_1; unfold norm2, dot; cbn [vx vy vz]; lra. }
    assert (0 <= u * Rabs (val k)) by (apply Rmult_le_pos; [lra|apply Rabs_pos]). rewrite (Rabs_right (u * Rabs (val k))), (Rabs_right h) by lra. assert (h * norm (V3 1 1 1) <= h * 2) by (apply Rmult_le_compat_l; lra). lra.
Qed.
(** Scaling by a number that is nearly [d]. *)
Definition nearly (k : f64) (d n : R) : Prop := finite k /\ / 2 ^ 200 <= d <= 2 ^ 200 /\ Rabs (val k - d) <= n * u * d /\ 0 <= n <= 3.
Lemma nearly_bounds k d n : nearly k d n -> 0 < d /\ Rabs (val k) <= (1 + n * u) * d /\ Rabs (val k) <= 2 ^ 250 /\ n * u <= / 1000.
Proof.
  intros (F & (D0 & D1) & D & N). pose proof u_pos. assert (U : n * u <= 3 * u) by (apply Rmult_le_compat_r; lra). assert (U3 : 3 * u <= / 1000) by (rewrite u_num; lra).
  assert (P : 0 < / 2 ^ 200) by (apply Rinv_0_lt_compat, pow_lt; lra). assert (A : Rabs (val k) <= (1 + n * u) * d) by (apply Rabs_le; apply Rabs_le_inv in D; lra).
  assert (M : (1 + n * u) * d <= 2 * d) by (apply Rmult_le_compat_r; lra). assert (W : 2 * 2 ^ 200 <= 2 ^ 250) by (change (2 * 2 ^ 200) with (2 ^ 201); apply Rle_pow; [lra|lia]). repeat split; lra.
Qed.
Lemma scaled_once k d n v v0 E : nearly k d n -> vfinite v -> norm (vval v) <= 2 ^ 700 -> norm (vsub (vval v) v0) <= E ->
  vfinite (ftimes v k) /\ norm (vsub (vval (ftimes v k)) (vscale d v0)) <= d * E + (n + 101 / 100) * u * (d * norm (vval v)) + 2 * h /\
  norm (vval (ftimes v k)) <= (1 + (n + 101 / 100) * u) * (d * norm (vval v)) + 2 * h.
Proof.
  intros NK F N HE. destruct (nearly_bounds k d n NK) as (Dp & A & A2 & U). destruct NK as (Fk & _ & Dk & Nn). pose proof u_pos as Up.
  destruct (ftimes_near v k Fk F A2 N) as [G D]. split; [exact G|]. set (x := norm (vval v)) in *. assert (x0 : 0 <= x) by apply norm_nonneg.
  assert (P1 : u * Rabs (val k) * x <= 101 / 100 * u * (d * x)).
  { rewrite Rmult_assoc. assert (Rabs (val k) * x <= (1 + n * u) * d * x) by (apply Rmult_le_compat_r; assumption). assert (dx : 0 <= d * x) by (apply Rmult_le_pos; lra).
    assert ((1 + n * u) * (d * x) <= 101 / 100 * (d * x)) by (apply Rmult_le_compat_r; lra). assert (u * (Rabs (val k) * x) <= u * (101 / 100 * (d * x))) by (apply Rmult_le_compat_l; lra). lra. }
  assert (P2 : Rabs (val k - d) * x <= n * u * (d * x)) by (rewrite <- Rmult_assoc; apply Rmult_le_compat_r; assumption).
  split.
  - pose proof (norm_triangle_sub (vval (ftimes v k)) (vscale (val k) (vval v)) (vscale d v0)) as T.
    replace (vsub (vscale (val k) (vval v)) (vscale d v0)) with (vadd (vscale (val k - d) (vval v)) (vscale d (vsub (vval v) v0))) in T by (unfold vadd, vsub, vscale; cbn [vx vy vz]; f_equal; ring).
    pose proof (norm_triangle (vscale (val k - d) (vval v)) (vscale d (vsub (vval v) v0))) as T2. rewrite !norm_scale in T2. rewrite (Rabs_right d) in T2 by lra. fold x in T2.
    assert (d * norm (vsub (vval v) v0) <= d * E) by (apply Rmult_le_compat_l; lra). lra.
  - pose proof (norm_near (vval (ftimes v k)) (vscale (val k) (vval v))) as T. rewrite norm_scale in T. fold x in T.
    assert (Rabs (val k) * x <= (1 + n * u) * (d * x)) by (rewrite <- Rmult_assoc; apply Rmult_le_compat_r; assumption). lra.
Qed.
Lemma scaled_twice k d n v v0 E : nearly k d n -> vfinite v -> norm (vval v) <= 2 ^ 450 -> norm (vsub (vval v) v0) <= E ->
  vfinite (ftimes (ftimes v k) k) /\ norm (vsub (vval (ftimes (ftimes v k) k)) (vscale (d * d) v0)) <= d * d * E + (n + 101 / 100) * u * (201 / 100 * (d * d * norm (vval v))) + 5 * h * (1 + d).
Proof.
  intros NK F N HE. assert (L0 : 2 ^ 450 <= 2 ^ 700) by (apply Rle_pow; [lra|lia]). destruct (nearly_bounds k d n NK) as (Dp & A & A2 & U). pose proof NK as (_ & (_ & D2) & _ & Nn). pose proof u_pos as Up. pose proof h_pos as Hp. assert (H1 : h <= 1) by (pose proof h_small_u; rewrite u_num in *; lra).
  destruct (scaled_once k d n v v0 E NK F ltac:(lra) HE) as (F1 & E1 & N1). set (x := norm (vval v)) in *. assert (x0 : 0 <= x) by apply norm_nonneg. assert (dx : 0 <= d * x) by (apply Rmult_le_pos; lra).
  assert (SU : 0 <= (n + 101 / 100) * u <= / 100) by (rewrite Rmult_plus_distr_r; rewrite u_num in *; lra).
  assert (N2 : norm (vval (ftimes v k)) <= 101 / 100 * (d * x) + 2 * h). { assert ((1 + (n + 101 / 100) * u) * (d * x) <= 101 / 100 * (d * x)) by (apply Rmult_le_compat_r; lra). lra. }
  assert (N3 : norm (vval (ftimes v k)) <= 2 ^ 700).
  { assert (B : d * x <= 2 ^ 200 * 2 ^ 450) by (apply Rmult_le_compat; lra). rewrite <- pow_add in B. change (200 + 450)%nat with 650%nat in B. assert (4 * 2 ^ 650 <= 2 ^ 700). { replace (4 * 2 ^ 650) with (2 ^ 2 * 2 ^ 650) by ring. rewrite <- pow_add. apply Rle_pow; [lra|lia]. } assert (1 <= 2 ^ 650) by (apply pow_R1_Rle; lra). lra. }
  destruct (scaled_once k d n _ _ _ NK F1 N3 E1) as (F2 & E2 & _). split; [exact F2|]. replace (vscale (d * d) v0) with (vscale d (vscale d v0)) by (unfold vscale; cbn [vx vy vz]; f_equal; ring).
  eapply Rle_trans; [exact E2|]. set (s := (n + 101 / 100) * u) in *. set (y := norm (vval (ftimes v k))) in *. assert (y0 : 0 <= y) by apply norm_nonneg.
  assert (Q : s * (d * y) <= s * (d * (101 / 100 * (d * x) + 2 * h))) by (apply Rmult_le_compat_l; [lra|apply Rmult_le_compat_l; lra]).
  assert (Q1 : s * (d * (2 * h)) <= / 100 * (d * (2 * h))) by (apply Rmult_le_compat_r; [apply Rmult_le_pos; lra|lra]). assert (Q2 : 0 <= s * (d * d * x)) by (apply Rmult_le_pos; [lra|rewrite Rmult_assoc; apply Rmult_le_pos; lra]). assert (0 <= d * h) by (apply Rmult_le_pos; lra). lra.
Qed.
Lemma h_scaled d : 0 <= d <= 2 ^ 200 -> h * (d * d) <= u * u / 10 ^ 9 /\ h * d <= u * u / 10 ^ 9 /\ h <= u * u / 10 ^ 9.
Proof.
  intro D. pose proof h_pos as Hp. assert (B : h * (2 ^ 200 * 2 ^ 200) <= u * u / 10 ^ 9).
  { rewrite <- (bpow_pow 200). unfold h. change (Z.of_nat 200) with 200%Z. rewrite <- !bpow_plus. apply Rle_trans with (bpow radix2 (-140)); [apply bpow_le; lia|]. rewrite u_num. change (bpow radix2 (-140)) with (/ 1393796574908163946345982392040522594123776). lra. }
  assert (P : 1 <= 2 ^ 200) by (apply pow_R1_Rle; lra). assert (P2 : 1 * 2 ^ 200 <= 2 ^ 200 * 2 ^ 200) by (apply Rmult_le_compat_r; lra). assert (DD : d * d <= 2 ^ 200 * 2 ^ 200) by (apply Rmult_le_compat; lra).
  assert (h * (d * d) <= h * (2 ^ 200 * 2 ^ 200)) by (apply Rmult_le_compat_l; lra). assert (h * d <= h * (2 ^ 200 * 2 ^ 200)) by (apply Rmult_le_compat_l; lra). assert (h * 1 <= h * (2 ^ 200 * 2 ^ 200)) by (apply Rmult_le_compat_l; lra). repeat split; lra.
Qed.
Lemma big_numbers : 10 ^ 30 <= 2 ^ 100 /\ 2 ^ 100 * 2 ^ 200 <= 2 ^ 700 /\ 2 ^ 100 * (2 ^ 200 * 2 ^ 200) <= 2 ^ 700 /\ 10 ^ 13 * (2 ^ 200 * 2 ^ 200) <= 2 ^ 450.
Proof.
  split; [lra|]. rewrite <- !pow_add. split; [apply Rle_pow; [lra|lia]|]. split; [apply Rle_pow; [lra|lia]|]. change (200 + 200)%nat with 400%nat. replace (2 ^ 450) with (2 ^ 50 * 2 ^ 400) by (rewrite <- pow_add; reflexivity). apply Rmult_le_compat_r; [apply pow_le; lra|lra].
Qed.
Lemma normalized_end e m d dt f c : nearly dt d 1 -> stored e m d f c -> 0 <= e <= / 10 ^ 5 -> u <= m <= 10 ^ 12 ->
  end_near (e + 5 * u) m (fnormalized (fpoint f) dt) (in_units d (at_state c)).
Proof.
  intros NK (_ & _ & (S & (F1 & D1) & (F2 & D2)) & V1 & V2) He Hm. destruct (nearly_bounds _ _ _ NK) as (Dp & _ & _ & _). pose proof NK as (_ & (DL & DH) & _ & _). pose proof u_pos as Up. assert (U6 : u <= / 10 ^ 6) by (rewrite u_num; lra).
  destruct (h_scaled d ltac:(lra)) as (_ & Hd & H1). pose proof h_pos as Hp. destruct big_numbers as (_ & _ & _ & B4). assert (em : 0 <= e * m <= / 10 ^ 5 * m) by (split; [apply Rmult_le_pos; lra|apply Rmult_le_compat_r; lra]).
  set (v := vval (jd (fpoint f))) in *. set (a := vval (jd2 (fpoint f))) in *. set (v0 := vel (at_state c)) in *. set (a0 := acc (at_state c)) in *.
  assert (dd : 0 < d * d) by (apply Rmult_lt_0_compat; lra). assert (I1 : / d <= 2 ^ 200). { rewrite <- (Rinv_inv (2 ^ 200)). apply Rinv_le; [apply Rinv_0_lt_compat, pow_lt; lra|lra]. } assert (I0 : 0 < / d) by (apply Rinv_0_lt_compat; lra).
  assert (X1 : norm v <= (1 + e) * m / d). { pose proof (norm_near v v0). replace ((1 + e) * m / d) with (m / d + e * m / d) by (field; lra). lra. }
  assert (X2 : norm a <= (1 + e) * m / (d * d)). { pose proof (norm_near a a0). replace ((1 + e) * m / (d * d)) with (m / (d * d) + e * m / (d * d)) by (field; lra). lra. }
  assert (Y1 : d * norm v <= (1 + e) * m). { apply Rle_trans with (d * ((1 + e) * m / d)); [apply Rmult_le_compat_l; lra|right; field; lra]. }
  assert (Y2 : d * d * norm a <= (1 + e) * m). { apply Rle_trans with (d * d * ((1 + e) * m / (d * d))); [apply Rmult_le_compat_l; lra|right; field; lra]. }
  assert (M13 : (1 + e) * m <= 10 ^ 13) by lra. assert (M0 : 0 <= (1 + e) * m) by lra.
  assert (Z2 : norm a <= 2 ^ 450).
  { eapply Rle_trans; [exact X2|]. replace ((1 + e) * m / (d * d)) with ((1 + e) * m * (/ d * / d)) by (field; lra). eapply Rle_trans; [|exact B4]. apply Rmult_le_compat; [lra|apply Rmult_le_pos; lra|lra|apply Rmult_le_compat; lra]. }
  assert (Z1 : norm v <= 2 ^ 700).
  { eapply Rle_trans; [exact X1|]. apply Rle_trans with (2 ^ 450); [|apply Rle_pow; [lra|lia]]. eapply Rle_trans; [|exact B4]. unfold Rdiv. apply Rmult_le_compat; lra. }
  destruct (scaled_once dt d 1 (jd (fpoint f)) v0 _ NK F1 Z1 D1) as (G1 & E1 & _). destruct (scaled_twice dt d 1 (jd2 (fpoint f)) a0 _ NK F2 Z2 D2) as (G2 & E2). fold v in E1. fold a in E2.
  assert (um : 0 < u * m) by (apply Rmult_lt_0_compat; lra). assert (uum : u * u <= u * m) by (apply Rmult_le_compat_l; lra). assert (uem : u * (e * m) <= / 10 ^ 5 * (u * m)). { replace (/ 10 ^ 5 * (u * m)) with (u * (/ 10 ^ 5 * m)) by ring. apply Rmult_le_compat_l; lra. }
  assert (Q1 : (1 + 101 / 100) * u * (d * norm v) <= (1 + 101 / 100) * u * ((1 + e) * m)) by (apply Rmult_le_compat_l; lra). assert (Q2 : (1 + 101 / 100) * u * (201 / 100 * (d * d * norm a)) <= (1 + 101 / 100) * u * (201 / 100 * ((1 + e) * m))) by (apply Rmult_le_compat_l; lra).
  replace (d * (e * m / d)) with (e * m) in E1 by (field; lra). replace (d * d * (e * m / (d * d))) with (e * m) in E2 by (field; lra).
  split; [split; [|split]|split]; cbn [fnormalized in_units jf jd jd2 rot vel acc]; fold v0 a0.
  - destruct S as (Sf & Sr & Sd). split; [exact Sf|]. split; [exact Sr|]. cbn [fst snd] in *. lra.
  - split; [exact G1|]. lra.
  - split; [exact G2|]. lra.
  - rewrite norm_scale, Rabs_right by lra. apply Rle_trans with (d * (m / d)); [apply Rmult_le_compat_l; lra|right; field; lra].
  - rewrite norm_scale, Rabs_right by lra. apply Rle_trans with (d * d * (m / (d * d))); [apply Rmult_le_compat_l; lra|right; field; lra].
Qed.
Lemma unnormalized k d f q X K : nearly k (/ d) 3 -> / 2 ^ 200 <= d <= 2 ^ 200 -> 1 <= K -> K * (105 * u) <= X -> X <= / 10 ^ 5 ->
  jet_within (79 * X) (340 * (X * K)) (2560 * (X * (K * K))) f q -> norm (vel q) <= 97 / 10 * K -> norm (acc q) <= 628 / 10 * (K * K) ->
  jet_within (79 * X) (341 * (X * K) / d) (2565 * (X * (K * K)) / (d * d)) (funnormalize k f) (in_units (/ d) q).
Proof.
  intros NK (DL & DH) K1 XL XH (S & (F1 & D1) & (F2 & D2)) V1 V2. pose proof u_pos as Up. assert (U6 : u <= / 10 ^ 6) by (rewrite u_num; lra). assert (P2 : 0 < / 2 ^ 200) by (apply Rinv_0_lt_compat, pow_lt; lra). assert (Dp : 0 < d) by lra.
  destruct (h_scaled d ltac:(lra)) as (Hdd & Hd & H1). pose proof h_pos as Hp. destruct big_numbers as (_ & _ & _ & B4).
  assert (K10 : K <= 10 ^ 10). { assert (K * (105 * u) <= / 10 ^ 5) by lra. rewrite u_num in *. lra. }
  assert (KK : 1 * K <= K * K) by (apply Rmult_le_compat_r; lra). assert (KK20 : K * K <= 10 ^ 10 * 10 ^ 10) by (apply Rmult_le_compat; lra).
  assert (X0 : 0 < K * (105 * u)) by (apply Rmult_lt_0_compat; lra). assert (XK : 0 <= X * K <= / 10 ^ 5 * K) by (split; [apply Rmult_le_pos; lra|apply Rmult_le_compat_r; lra]). assert (XKK : 0 <= X * (K * K) <= / 10 ^ 5 * (K * K)) by (split; [apply Rmult_le_pos; lra|apply Rmult_le_compat_r; lra]).
  set (v := vval (jd f)) in *. set (a := vval (jd2 f)) in *. set (v0 := vel q) in *. set (a0 := acc q) in *.
  assert (X1 : norm v <= 971 / 100 * K) by (pose proof (norm_near v v0); lra). assert (X2 : norm a <= 6283 / 100 * (K * K)) by (pose proof (norm_near a a0); lra).
  assert (B100 : 10 ^ 22 <= 2 ^ 450) by (apply Rle_trans with (2 ^ 100); [lra|apply Rle_pow; [lra|lia]]). assert (B700 : 2 ^ 450 <= 2 ^ 700) by (apply Rle_pow; [lra|lia]).
  destruct (scaled_once k (/ d) 3 (jd f) v0 _ NK F1 ltac:(fold v; lra) D1) as (G1 & E1 & _). destruct (scaled_twice k (/ d) 3 (jd2 f) a0 _ NK F2 ltac:(fold a; lra) D2) as (G2 & E2). fold v in E1. fold a in E2.
  assert (I0 : 0 < / d) by (apply Rinv_0_lt_compat; lra). assert (I1 : 0 < / d * / d) by (apply Rmult_lt_0_compat; lra).
  assert (uK : K * (105 * u) * K <= X * K) by (apply Rmult_le_compat_r; lra). assert (uKK : K * (105 * u) * (K * K) <= X * (K * K)) by (apply Rmult_le_compat_r; lra).
  assert (L1 : u * K <= u * (K * K)) by (apply Rmult_le_compat_l; lra). assert (L2 : u * (K * K) <= u * (K * (K * K))). { apply Rmult_le_compat_l; [lra|]. assert (1 * (K * K) <= K * (K * K)) by (apply Rmult_le_compat_r; lra). lra. } assert (L0 : u * 1 <= u * K) by (apply Rmult_le_compat_l; lra). assert (uu : u * u <= u * 1) by (apply Rmult_le_compat_l; lra).
  split; [|split]; cbn [funnormalize in_units jf jd jd2 rot vel acc]; fold v0 a0.
  - exact S.
  - split; [exact G1|]. eapply Rle_trans; [exact E1|]. replace (2 * h) with (/ d * (2 * (h * d))) by (field; lra).
    apply Rle_trans with (/ d * (340 * (X * K) + (3 + 101 / 100) * u * (971 / 100 * K) + 2 * (h * d))).
    + rewrite !Rmult_plus_distr_l. apply Rplus_le_compat_r. apply Rplus_le_compat_l. replace ((3 + 101 / 100) * u * (/ d * norm v)) with (/ d * ((3 + 101 / 100) * u * norm v)) by ring. apply Rmult_le_compat_l; [lra|]. apply Rmult_le_compat_l; lra.
    + unfold Rdiv. rewrite (Rmult_comm (341 * (X * K))). apply Rmult_le_compat_l; lra.
  - split; [exact G2|]. eapply Rle_trans; [exact E2|]. replace (5 * h * (1 + / d)) with (/ d * / d * (5 * (h * (d * d) + h * d))) by (field; lra).
    apply Rle_trans with (/ d * / d * (2560 * (X * (K * K)) + (3 + 101 / 100) * u * (201 / 100 * (6283 / 100 * (K * K))) + 5 * (h * (d * d) + h * d))).
    + rewrite !(Rmult_plus_distr_l (/ d * / d)). apply Rplus_le_compat_r. apply Rplus_le_compat_l. replace ((3 + 101 / 100) * u * (201 / 100 * (/ d * / d * norm a))) with (/ d * / d * ((3 + 101 / 100) * u * (201 / 100 * norm a))) by ring. apply Rmult_le_compat_l; [lra|]. apply Rmult_le_compat_l; lra.
    + replace (2565 * (X * (K * K)) / (d * d)) with (/ d * / d * (2565 * (X * (K * K)))) by (field; lra). apply Rmult_le_compat_l; lra.
Qed.
