(** Errors of composing two-jets of rotations, in units. *)
From Coq Require Import Reals Lra Lia Psatz.
From Flocq Require Import Core BinarySingleNaN.
From Verif Require Import Cpp FloatModel FloatSpec NrmSpec NrmProofs Vec RotSpec CoeffProofs DriftModel DriftSpec DriftProofs SpinModel SpinSpec TwistModel TwistProofs2 TlogModel FtsModel FtsSpec FtsProofs.
Local Open Scope R_scope.

Definition units (X K : R) : Prop := 1 <= K /\ K * (100 * u) <= X /\ X <= / 10 ^ 5.
Definition some_units x := 0 <= x <= 5000.
Lemma units_big X K : units X K -> K <= 10 ^ 9 /\ 0 < X /\ 100 * u <= X /\ h <= X / 10 ^ 6.
Proof.
  intros (K1 & KX & X5). pose proof u_pos as Up. pose proof h_small_u as Hs. assert (1 * (100 * u) <= K * (100 * u)) by (apply Rmult_le_compat_r; lra).
  split; [|split; [lra|split; [lra|rewrite u_num in *; lra]]]. apply Rmult_le_reg_r with (100 * u); [lra|]. rewrite u_num in *. lra.
Qed.
Lemma big_900 : 10 ^ 60 <= 2 ^ 900 /\ 10 ^ 60 <= 2 ^ 990 /\ 10 ^ 60 <= 2 ^ 1000.
Proof.
  assert (P : 10 ^ 60 <= 2 ^ 240). { replace (10 ^ 60) with ((10 ^ 1) ^ 60) by (rewrite pow_1; reflexivity). replace (2 ^ 240) with ((2 ^ 4) ^ 60) by (rewrite <- pow_mult; reflexivity). apply pow_incr. lra. }
  repeat split; (eapply Rle_trans; [exact P|apply Rle_pow; [lra|lia]]).
Qed.
(** The error of a rotated vector. *)
Lemma units_rotated X K n a p b : units X K -> 1 <= n -> 0 <= a -> 0 <= p -> 0 <= b ->
  (a * X + 6 * u) * (p * n + b * (X * n)) + 7 * h + b * (X * n) <= ((a + / 10) * (p + b / 10 ^ 5) + b + / 10 ^ 3) * (X * n).
Proof.
  intros U N A P B. destruct (units_big X K U) as (_ & X0 & Xu & Xh). destruct U as (_ & _ & X5). pose proof u_pos.
  assert (XN : X * 1 <= X * n) by (apply Rmult_le_compat_l; lra).
  assert (E1 : a * X + 6 * u <= (a + / 10) * X) by lra.
  assert (E2 : p * n + b * (X * n) <= (p + b / 10 ^ 5) * n). { assert (b * (X * n) <= b * (/ 10 ^ 5 * n)) by (apply Rmult_le_compat_l; [lra|]; apply Rmult_le_compat_r; lra). lra. }
  assert (0 <= a * X) by (apply Rmult_le_pos; lra). assert (0 <= p * n) by (apply Rmult_le_pos; lra). assert (0 <= b * (X * n)) by (apply Rmult_le_pos; lra).
  assert (E3 : (a * X + 6 * u) * (p * n + b * (X * n)) <= ((a + / 10) * X) * ((p + b / 10 ^ 5) * n)) by (apply Rmult_le_compat; lra).
  replace (((a + / 10) * (p + b / 10 ^ 5) + b + / 10 ^ 3) * (X * n)) with (((a + / 10) * X) * ((p + b / 10 ^ 5) * n) + b * (X * n) + / 10 ^ 3 * (X * n)) by ring. lra.
Qed.
(** The relative error makes a size grow little. *)
Lemma units_size X K n p b : units X K -> 1 <= n -> 0 <= b -> p * n + b * (X * n) <= (p + b / 10 ^ 5) * n.
Proof.
  intros (_ & _ & X5) N B. assert (b * (X * n) <= b * (/ 10 ^ 5 * n)) by (apply Rmult_le_compat_l; [lra|]; apply Rmult_le_compat_r; lra). lra.
Qed.
(** Rounding a size. *)
Lemma units_round X K p : units X K -> 0 <= p -> u * (p * K) <= p / 100 * (X * K) /\ u * (p * (K * K)) <= p / 100 * (X * (K * K)).
Proof.
  intros U P. destruct (units_big X K U) as (_ & X0 & Xu & _). destruct U as (K1 & KX & X5). pose proof u_pos.
  assert (KK : 1 <= K * K) by (assert (1 * 1 <= K * K) by (apply Rmult_le_compat; lra); lra).
  split.
  - assert (p * (u * K) <= p * (X / 100 * K)) by (apply Rmult_le_compat_l; [lra|]; apply Rmult_le_compat_r; lra). lra.
  - assert (p * (u * (K * K)) <= p * (X / 100 * (K * K))) by (apply Rmult_le_compat_l; [lra|]; apply Rmult_le_compat_r; lra). lra.
Qed.
Lemma jet_mul_near X K a0 b0 p0 c0 q0 a b p c q ja xa jb xb jc : units X K ->
  0 <= a0 <= 90 -> some_units b0 -> some_units p0 -> some_units c0 -> some_units q0 -> 0 <= a <= 90 -> some_units b -> some_units p -> some_units c -> some_units q ->
  jet_near X K a0 b0 p0 c0 q0 ja xa -> jet_near X K a b p c q jb xb -> fjet_mul ja jb jc ->
  let g := (a0 + / 10) * (p + b / 10 ^ 5) + b + / 10 ^ 3 in
  let g2 := (a0 + / 10) * (q + c / 10 ^ 5) + c + / 10 ^ 3 in
  let r := b0 * (p + g / 10 ^ 5) + p0 * g + 35 / 1000 * ((p0 + b0 / 10 ^ 5) * (p + g / 10 ^ 5)) + / 10 ^ 3 in
  let f := c0 + g2 + (q0 + q + (c0 + g2) / 10 ^ 5) / 100 in
  jet_near X K (a0 + a + 1 / 5) (b0 + g + (p0 + p + (b0 + g) / 10 ^ 5) / 100) (p0 + p)
    (f + r + (q0 + q + f / 10 ^ 5 + (p0 * p + r / 10 ^ 5)) / 100) (q0 + q + p0 * p) jc (on_top xa xb).
Proof.
  intros U HA0 HB0 HP0 HC0 HQ0 HA HB HP HC HQ ((SA & (FdA & DA) & (Fd2A & D2A)) & NA & N2A) ((SB & (FdB & DB) & (Fd2B & D2B)) & NB & N2B) (M & (w & W & E1) & (w2 & w' & W2 & W' & E2)).
  destruct (units_big X K U) as (K9 & X0 & Xu & Xh). pose proof U as (K1 & KX & X5). pose proof u_pos as Up. pose proof h_pos as Hp. destruct big_900 as (G9 & G90 & G1).
  assert (KK : 1 <= K * K) by (assert (1 * 1 <= K * K) by (apply Rmult_le_compat; lra); lra). assert (KK9 : K * K <= 10 ^ 18) by (assert (K * K <= 10 ^ 9 * 10 ^ 9) by (apply Rmult_le_compat; lra); lra).
  assert (XK : 0 < X * K) by (apply Rmult_lt_0_compat; lra). assert (XKK : 0 < X * (K * K)) by (apply Rmult_lt_0_compat; lra).
  intros g g2 r f. unfold some_units in *.
  assert (Pg : 0 <= g <= 10 ^ 6).
  { unfold g. assert (0 <= (a0 + / 10) * (p + b / 10 ^ 5) <= 91 * 5001) by (split; [apply Rmult_le_pos; lra|apply Rmult_le_compat; lra]). lra. }
  assert (Pg2 : 0 <= g2 <= 10 ^ 6).
  { unfold g2. assert (0 <= (a0 + / 10) * (q + c / 10 ^ 5) <= 91 * 5001) by (split; [apply Rmult_le_pos; lra|apply Rmult_le_compat; lra]). lra. }
  assert (Pr : 0 <= r <= 10 ^ 11).
  { unfold r. assert (0 <= b0 * (p + g / 10 ^ 5) <= 5000 * 6000) by (split; [apply Rmult_le_pos; lra|apply Rmult_le_compat; lra]).
    assert (0 <= p0 * g <= 5000 * 10 ^ 6) by (split; [apply Rmult_le_pos; lra|apply Rmult_le_compat; lra]).
    assert (0 <= (p0 + b0 / 10 ^ 5) * (p + g / 10 ^ 5) <= 6000 * 6000) by (split; [apply Rmult_le_pos; lra|apply Rmult_le_compat; lra]). lra. }
  assert (Pf : 0 <= f <= 10 ^ 7) by (unfold f; lra).
  assert (Ppp : 0 <= p0 * p <= 5000 * 5000) by (split; [apply Rmult_le_pos; lra|apply Rmult_le_compat; lra]).
  assert (SMALL : a0 * X <= 1 / 9) by (assert (a0 * X <= 90 * / 10 ^ 5) by (apply Rmult_le_compat; lra); lra).
  assert (SMALL2 : forall y, 0 <= y <= 90 -> y * X <= / 50) by (intros y Y; assert (y * X <= 90 * / 10 ^ 5) by (apply Rmult_le_compat; lra); lra).
  assert (BIG : forall y, 0 <= y <= 10 ^ 12 -> y * K <= 10 ^ 21 /\ y * (K * K) <= 10 ^ 30).
  { intros y Y. split; [assert (y * K <= 10 ^ 12 * 10 ^ 9) by (apply Rmult_le_compat; lra); lra|assert (y * (K * K) <= 10 ^ 12 * 10 ^ 18) by (apply Rmult_le_compat; lra); lra]. }
  (* the frame *)
  split; [|split].
  2:{ cbn [on_top vel]. pose proof (norm_triangle (vel xa) (mvec (rot xa) (vel xb))) as T. rewrite (rot_norm (rot xa)) in T by (destruct SA as (_ & RA & _); exact RA). lra. }
  2:{ cbn [on_top acc]. destruct SA as (_ & RA & _). cbn [fst snd] in RA.
      pose proof (norm_triangle (vadd (acc xa) (mvec (rot xa) (acc xb))) (cross (vel xa) (mvec (rot xa) (vel xb)))) as T. pose proof (norm_triangle (acc xa) (mvec (rot xa) (acc xb))) as T2.
      rewrite (rot_norm (rot xa)) in T2 by exact RA. pose proof (CoeffProofs.norm_cross_le (vel xa) (mvec (rot xa) (vel xb))) as T3. rewrite (rot_norm (rot xa)) in T3 by exact RA.
      assert (norm (vel xa) * norm (vel xb) <= (p0 * K) * (p * K)) by (apply Rmult_le_compat; try apply norm_nonneg; lra). lra. }
  split; [|split].
  - cbn [on_top rot]. destruct (product_near (jf ja) (rot xa) (a0 * X) (jf jb) (rot xb) (a * X) (jf jc) SA SB (SMALL2 a0 HA0) (SMALL2 a HA) M) as (F & R & D). split; [exact F|]. split; [exact R|]. cbn [fst snd] in *.
    assert (a0 * a <= 90 * 90) by (apply Rmult_le_compat; lra). assert (X * X <= / 10 ^ 5 * X) by (apply Rmult_le_compat_r; lra). assert ((a0 * a) * (X * X) <= (90 * 90) * (/ 10 ^ 5 * X)) by (apply Rmult_le_compat; [apply Rmult_le_pos; lra|apply Rmult_le_pos; lra|lra|lra]). lra.
  - (* the velocity *)
    destruct (rotated_near (jf ja) (rot xa) (a0 * X) (jd jb) (vel xb) (p * K) (b * (X * K)) w SA SMALL FdB DB NB ltac:(pose proof (units_size X K K p b U K1 ltac:(lra)); destruct (BIG (p + b / 10 ^ 5) ltac:(lra)); lra) W) as (Fw & Dw & Nw).
    pose proof (units_rotated X K K a0 p b U K1 ltac:(lra) ltac:(lra) ltac:(lra)) as Eg. fold g in Eg.
    assert (Dw' : norm (vsub (vval w) (mvec (rot xa) (vel xb))) <= g * (X * K)) by lra. clear Dw.
    pose proof (units_size X K K p0 b0 U K1 ltac:(lra)) as S0. pose proof (units_size X K K p g U K1 ltac:(lra)) as S1. destruct (BIG (p0 + b0 / 10 ^ 5) ltac:(lra)) as [B0 _]. destruct (BIG (p + g / 10 ^ 5) ltac:(lra)) as [B1 _].
    destruct (sum_near (jd ja) w (vel xa) (mvec (rot xa) (vel xb)) (b0 * (X * K)) (g * (X * K)) (p0 * K) (p * K) FdA Fw DA Dw' NA Nw ltac:(lra) ltac:(lra)) as (Fs & Ds & _).
    cbn [on_top vel]. rewrite E1. split; [exact Fs|]. destruct (units_round X K (p0 + p + (b0 + g) / 10 ^ 5) U ltac:(lra)) as [Ru _].
    assert (u * (p0 * K + b0 * (X * K) + (p * K + g * (X * K))) <= u * ((p0 + p + (b0 + g) / 10 ^ 5) * K)) by (apply Rmult_le_compat_l; lra). lra.
  - (* the acceleration *)
    destruct (rotated_near (jf ja) (rot xa) (a0 * X) (jd jb) (vel xb) (p * K) (b * (X * K)) w' SA SMALL FdB DB NB ltac:(pose proof (units_size X K K p b U K1 ltac:(lra)); destruct (BIG (p + b / 10 ^ 5) ltac:(lra)); lra) W') as (Fw & Dw & Nw).
    pose proof (units_rotated X K K a0 p b U K1 ltac:(lra) ltac:(lra) ltac:(lra)) as Eg. fold g in Eg.
    assert (Dw' : norm (vsub (vval w') (mvec (rot xa) (vel xb))) <= g * (X * K)) by lra. clear Dw.
    destruct (rotated_near (jf ja) (rot xa) (a0 * X) (jd2 jb) (acc xb) (q * (K * K)) (c * (X * (K * K))) w2 SA SMALL Fd2B D2B N2B ltac:(pose proof (units_size X K (K * K) q c U KK ltac:(lra)); destruct (BIG (q + c / 10 ^ 5) ltac:(lra)); lra) W2) as (Fw2 & Dw2 & Nw2).
    pose proof (units_rotated X K (K * K) a0 q c U KK ltac:(lra) ltac:(lra) ltac:(lra)) as Eg2. fold g2 in Eg2.
    assert (Dw2' : norm (vsub (vval w2) (mvec (rot xa) (acc xb))) <= g2 * (X * (K * K))) by lra. clear Dw2.
    pose proof (units_size X K K p0 b0 U K1 ltac:(lra)) as S0. pose proof (units_size X K K p g U K1 ltac:(lra)) as S1. destruct (BIG (p0 + b0 / 10 ^ 5) ltac:(lra)) as [B0 _]. destruct (BIG (p + g / 10 ^ 5) ltac:(lra)) as [B1 _].
    pose proof (units_size X K (K * K) q0 c0 U KK ltac:(lra)) as S2. pose proof (units_size X K (K * K) q g2 U KK ltac:(lra)) as S3. destruct (BIG (q0 + c0 / 10 ^ 5) ltac:(lra)) as [_ B2]. destruct (BIG (q + g2 / 10 ^ 5) ltac:(lra)) as [_ B3].
    (* the cross product *)
    assert (Z1 : 0 <= p0 * K + b0 * (X * K)) by (assert (0 <= p0 * K) by (apply Rmult_le_pos; lra); assert (0 <= b0 * (X * K)) by (apply Rmult_le_pos; lra); lra).
    assert (Z2 : 0 <= p * K + g * (X * K)) by (assert (0 <= p * K) by (apply Rmult_le_pos; lra); assert (0 <= g * (X * K)) by (apply Rmult_le_pos; lra); lra).
    assert (PP : (p0 * K + b0 * (X * K)) * (p * K + g * (X * K)) <= ((p0 + b0 / 10 ^ 5) * K) * ((p + g / 10 ^ 5) * K)) by (apply Rmult_le_compat; lra).
    assert (PB : (p0 * K + b0 * (X * K)) * (p * K + g * (X * K)) <= 10 ^ 21 * 10 ^ 21) by (apply Rmult_le_compat; lra).
    destruct (crossed_near (jd ja) w' (vel xa) (mvec (rot xa) (vel xb)) (b0 * (X * K)) (g * (X * K)) (p0 * K) (p * K) FdA Fw DA Dw' NA Nw ltac:(lra)) as (Fc & Dc & Nc).
    set (k1 := p0 + b0 / 10 ^ 5) in *. set (k2 := p + g / 10 ^ 5) in *. assert (Pk1 : 0 <= k1) by (unfold k1; lra). assert (Pk2 : 0 <= k2) by (unfold k2; lra).
    assert (C1 : b0 * (X * K) * (p * K + g * (X * K)) <= b0 * (X * K) * (k2 * K)) by (apply Rmult_le_compat_l; [apply Rmult_le_pos; lra|lra]).
    destruct (units_round X K (k1 * k2) U ltac:(apply Rmult_le_pos; lra)) as [_ C2].
    assert (C3 : u * ((p0 * K + b0 * (X * K)) * (p * K + g * (X * K))) <= u * (k1 * k2 * (K * K))) by (apply Rmult_le_compat_l; lra).
    assert (XKK1 : X * 1 <= X * (K * K)) by (apply Rmult_le_compat_l; lra).
    assert (KQ : 0 <= k1 * k2 * (X * (K * K))) by (apply Rmult_le_pos; [apply Rmult_le_pos; lra|lra]).
    assert (Dc' : norm (vsub (vval (fcross (jd ja) w')) (cross (vel xa) (mvec (rot xa) (vel xb)))) <= r * (X * (K * K))).
    { unfold r. fold k1 k2. replace ((b0 * k2 + p0 * g + 35 / 1000 * (k1 * k2) + / 10 ^ 3) * (X * (K * K))) with (b0 * (X * K) * (k2 * K) + p0 * K * (g * (X * K)) + 35 / 1000 * (k1 * k2 * (X * (K * K))) + / 10 ^ 3 * (X * (K * K))) by ring. lra. }
    clear Dc.
    destruct (sum_near (jd2 ja) w2 (acc xa) (mvec (rot xa) (acc xb)) (c0 * (X * (K * K))) (g2 * (X * (K * K))) (q0 * (K * K)) (q * (K * K)) Fd2A Fw2 D2A Dw2' N2A Nw2 ltac:(lra) ltac:(lra)) as (Fs & Ds & Ns).
    destruct (units_round X K (q0 + q + (c0 + g2) / 10 ^ 5) U ltac:(lra)) as [_ Ru].
    assert (u * (q0 * (K * K) + c0 * (X * (K * K)) + (q * (K * K) + g2 * (X * (K * K)))) <= u * ((q0 + q + (c0 + g2) / 10 ^ 5) * (K * K))) by (apply Rmult_le_compat_l; lra).
    assert (Ds' : norm (vsub (vval (fvadd (jd2 ja) w2)) (vadd (acc xa) (mvec (rot xa) (acc xb)))) <= f * (X * (K * K))) by (unfold f; lra). clear Ds.
    pose proof (units_size X K (K * K) (q0 + q) f U KK ltac:(lra)) as S4. pose proof (units_size X K (K * K) (p0 * p) r U KK ltac:(lra)) as S5. destruct (BIG (q0 + q + f / 10 ^ 5) ltac:(lra)) as [_ B4]. destruct (BIG (p0 * p + r / 10 ^ 5) ltac:(lra)) as [_ B5].
    assert (Nc' : norm (cross (vel xa) (mvec (rot xa) (vel xb))) <= p0 * p * (K * K)) by lra.
    assert (Ns' : norm (vadd (acc xa) (mvec (rot xa) (acc xb))) <= (q0 + q) * (K * K)) by lra.
    destruct (sum_near (fvadd (jd2 ja) w2) (fcross (jd ja) w') _ _ (f * (X * (K * K))) (r * (X * (K * K))) ((q0 + q) * (K * K)) (p0 * p * (K * K)) Fs Fc Ds' Dc' Ns' Nc' ltac:(lra) ltac:(lra)) as (Ft & Dt & _).
    cbn [on_top acc]. rewrite E2. split; [exact Ft|]. destruct (units_round X K (q0 + q + f / 10 ^ 5 + (p0 * p + r / 10 ^ 5)) U ltac:(lra)) as [_ Ru2].
    assert (u * ((q0 + q) * (K * K) + f * (X * (K * K)) + (p0 * p * (K * K) + r * (X * (K * K)))) <= u * ((q0 + q + f / 10 ^ 5 + (p0 * p + r / 10 ^ 5)) * (K * K))) by (apply Rmult_le_compat_l; lra). lra.
Qed.
Lemma jet_near_le X K a b p c q a' b' p' c' q' j x : units X K -> a <= a' -> b <= b' -> p <= p' -> c <= c' -> q <= q' -> jet_near X K a b p c q j x -> jet_near X K a' b' p' c' q' j x.
Proof.
  intros U A B P C Q (((Fm & R & D) & (F1 & D1) & (F2 & D2)) & N1 & N2). destruct (units_big X K U) as (_ & X0 & _). destruct U as (K1 & _).
  assert (0 < K * K) by (apply Rmult_lt_0_compat; lra). assert (0 < X * K) by (apply Rmult_lt_0_compat; lra). assert (0 < X * (K * K)) by (apply Rmult_lt_0_compat; lra).
  assert (a * X <= a' * X) by (apply Rmult_le_compat_r; lra). assert (b * (X * K) <= b' * (X * K)) by (apply Rmult_le_compat_r; lra). assert (c * (X * (K * K)) <= c' * (X * (K * K))) by (apply Rmult_le_compat_r; lra).
  assert (p * K <= p' * K) by (apply Rmult_le_compat_r; lra). assert (q * (K * K) <= q' * (K * K)) by (apply Rmult_le_compat_r; lra).
  split; [|split; lra]. split; [split; [exact Fm|split; [exact R|cbn [fst snd] in *; lra]]|]. split; split; try assumption; lra.
Qed.
