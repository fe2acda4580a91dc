(** Part of the way, and lengths. *)
From Coq Require Import Reals Psatz ZArith.
From Flocq Require Import Core BinarySingleNaN.
From Verif Require Import Cpp RotSpec GeomModel RotProofs CoeffProofs DerivSpec DerivProofs ScrewSpec LieProofs DiffProofs FloatModel FloatSpec NrmSpec FloatProofs NrmProofs DriftModel DriftSpec DriftProofs DriftProofs2 SpinModel SpinSpec SpinProofs SpinProofs2 TwistModel TwistProofs TwistProofs2 TwistProofs3 TlogModel TlogSpec TlogProofs TlogProofs2 TlogProofs4 TlogProofs5 TlogProofs6 SlogModel SlogProofs SlogProofs2 SlogProofs3 SlogProofs4 SlogProofs5 SlogProofs6.
From Verif Require JetLaws.
Local Open Scope R_scope.

Definition ftimes (v : fvec) (f : f64) : fvec := FV (fmul (fx v) f) (fmul (fy v) f) (fmul (fz v) f).
Lemma times_near v f : vfinite v -> finite f -> Rabs (val f) * norm (vval v) <= 2 ^ 1000 ->
  vfinite (ftimes v f) /\ norm (vsub (vval (ftimes v f)) (vscale (val f) (vval v))) <= u * (Rabs (val f) * norm (vval v)) + 2 * h.
Proof.
  intros (X & Y & Z) F B. destruct (entry_norm (vval v)) as (Bx & By & Bz). cbn [vval vx vy vz] in Bx, By, Bz. pose proof u_pos as Up. pose proof h_pos as Hp. pose proof (Rabs_pos (val f)) as f0.
  assert (K : forall x, Rabs (val x) <= norm (vval v) -> Rabs (val x * val f) <= 2 ^ 1000).
  { intros x Bx'. rewrite Rabs_mult, Rmult_comm. eapply Rle_trans; [|exact B]. apply Rmult_le_compat_l; assumption. }
  destruct (mul_error (fx v) f X F (K _ Bx)) as [G1 D1]. destruct (mul_error (fy v) f Y F (K _ By)) as [G2 D2]. destruct (mul_error (fz v) f Z F (K _ Bz)) as [G3 D3].
  split; [repeat split; assumption|].
  apply Rle_trans with (norm (vadd (vscale (u * Rabs (val f)) (vabs (vval v))) (vscale h (V3 1 1 1)))).
  - apply norm_mono; unfold ftimes, vadd, vsub, vscale, vabs, vval; cbn [vx vy vz fx fy fz]; rewrite Rmult_1_r, (Rmult_comm (val f)), Rmult_assoc, <- Rabs_mult; rewrite (Rmult_comm (val f)); assumption.
  - eapply Rle_trans; [apply norm_triangle|]. rewrite !norm_scale, norm_vabs.
    assert (norm (V3 1 1 1) <= 2). { unfold norm. rewrite <- (sqrt_square 2) by lra. apply sqrt_le_1; unfold norm2, dot; cbn [vx vy vz]; lra. }
    assert (0 <= u * Rabs (val f)) by (apply Rmult_le_pos; lra). rewrite (Rabs_right (u * Rabs (val f))), (Rabs_right h) by lra. assert (h * norm (V3 1 1 1) <= h * 2) by (apply Rmult_le_compat_l; lra). lra.
Qed.
Lemma screw_part w v f : screw w v f = screw (vscale f w) (vscale f v) 1.
Proof. rewrite JetLaws.screw_scale, Rmult_1_r. reflexivity. Qed.
(** Two screw motions after the same time. *)
Lemma screws_near w v w' v' : norm (vsub (screw w v 1) (screw w' v' 1)) <= norm (vsub v v') + 7072 / 10000 * norm (vsub w w') * norm v'.
Proof. eapply Rle_trans; [apply (norm_triangle_sub _ (screw w v' 1))|]. apply Rplus_le_compat; [apply screw_near|apply screw_lipschitz]. Qed.
Lemma parts_near w v w' v' f : norm (vsub (screw w v f) (screw w' v' f)) <= Rabs f * norm (vsub v v') + 7072 / 10000 * (Rabs f * Rabs f) * norm (vsub w w') * norm v'.
Proof.
  rewrite (screw_part w v f), (screw_part w' v' f). eapply Rle_trans; [apply screws_near|]. replace (vsub (vscale f v) (vscale f v')) with (vscale f (vsub v v')) by vring. replace (vsub (vscale f w) (vscale f w')) with (vscale f (vsub w w')) by vring. rewrite !norm_scale. right. ring.
Qed.
Lemma part_translation w v f p : vfinite w -> vfinite v -> finite f -> norm (vval w) <= reach_max -> Rabs (val f) <= 2 ^ 480 -> Rabs (val f) * norm (vval v) <= 2 ^ 499 ->
  fse3_exp (ftimes w f) (ftimes v f) p ->
  vfinite (ftrans p) /\ norm (vsub (vval (ftrans p)) (screw (vval w) (vval v) (val f))) <= (1148 + 3 * Rabs (val f)) * u * (Rabs (val f) * norm (vval v)) + (20 + 23 * Rabs (val f)) * h.
Proof.
  intros Fw Fv Ff Nw Bf Bv X. pose proof u_pos as Up. pose proof h_pos as Hp. pose proof PI_bounds as PB. unfold reach_max in Nw. assert (h1 : h <= u / 1000000000) by apply h_small_u. assert (u1 : u <= / 1000000000) by (rewrite u_num; lra).
  set (a := Rabs (val f)) in *. assert (a0 : 0 <= a) by apply Rabs_pos. pose proof (norm_nonneg (vval w)) as L0. pose proof (norm_nonneg (vval v)) as V0.
  assert (Bw : a * norm (vval w) <= 2 ^ 2 * 2 ^ 480) by (rewrite Rmult_comm; apply Rmult_le_compat; lra).
  assert (Q1 : 2 ^ 2 * 2 ^ 480 * 100 <= 2 ^ 490) by (apply Rle_trans with (2 ^ 2 * 2 ^ 480 * 2 ^ 7); [apply Rmult_le_compat_l; [apply Rmult_le_pos; apply pow_le; lra|lra]|rewrite pow_sum, pow_sum; apply Rle_pow; [lra|lia]]).
  assert (Q2 : 2 ^ 490 <= 2 ^ 1000) by (apply Rle_pow; [lra|lia]). assert (Q3 : 2 ^ 500 = 2 * 2 ^ 499) by reflexivity. assert (Q4 : 2 ^ 500 <= 2 ^ 1000) by (apply Rle_pow; [lra|lia]). assert (Q5 : 1 <= 2 ^ 490) by (apply pow_R1_Rle; lra). assert (Q6 : 1 <= 2 ^ 499) by (apply pow_R1_Rle; lra).
  assert (Q7 : 0 < 2 ^ 480) by (apply pow_lt; lra).
  destruct (times_near w f Fw Ff ltac:(fold a; lra)) as [Fw' Dw]. destruct (times_near v f Fv Ff ltac:(fold a; lra)) as [Fv' Dv]. fold a in Dw, Dv. set (w' := ftimes w f) in *. set (v' := ftimes v f) in *.
  set (V := a * norm (vval v)) in *. assert (V1 : 0 <= V) by (apply Rmult_le_pos; lra). assert (W1 : 0 <= a * norm (vval w)) by (apply Rmult_le_pos; lra).
  assert (Nw' : norm (vval w') <= (1 + u) * (a * norm (vval w)) + 2 * h) by (pose proof (norm_near (vval w') (vscale (val f) (vval w))) as T; rewrite norm_scale in T; fold a in T; lra).
  assert (Nv' : norm (vval v') <= (1 + u) * V + 2 * h) by (pose proof (norm_near (vval v') (vscale (val f) (vval v))) as T; rewrite norm_scale in T; fold a V in T; lra).
  assert (uV : u * V <= / 1000000000 * V) by (apply Rmult_le_compat_r; lra). assert (uV0 : 0 <= u * V) by (apply Rmult_le_pos; lra).
  assert (uW : u * (a * norm (vval w)) <= / 1000000000 * (a * norm (vval w))) by (apply Rmult_le_compat_r; lra).
  assert (Wa : a * norm (vval w) <= 3143 / 1000 * a) by (rewrite Rmult_comm; apply Rmult_le_compat_r; lra).
  destruct (rotation_by_some (vval w')) as [r' R']. destruct (se3_exp_near w' v' r' p Fw' Fv' ltac:(lra) ltac:(lra) R' X) as (_ & Fp & D). fold h in D. split; [exact Fp|].
  eapply Rle_trans; [apply (norm_triangle_sub _ (screw (vval w') (vval v') 1))|]. rewrite (screw_part (vval w) (vval v) (val f)).
  pose proof (screws_near (vval w') (vval v') (vscale (val f) (vval w)) (vscale (val f) (vval v))) as N. rewrite norm_scale in N. fold a V in N.
  pose proof (inv_reach (norm (vval w'))) as I. pose proof (norm_nonneg (vval v')) as V2. pose proof (norm_nonneg (vval w')) as W2.
  assert (A1 : (76 + 203 / 100 / Rmax (norm (vval w')) (19 / 10000)) * u * norm (vval v') <= 1145 * u * ((1 + u) * V + 2 * h)).
  { apply Rmult_le_compat; try lra.
    - apply Rmult_le_pos; [|lra]. assert (0 < / Rmax (norm (vval w')) (19 / 10000)) by (apply Rinv_0_lt_compat; eapply Rlt_le_trans; [|apply Rmax_r]; lra). unfold Rdiv. lra.
    - apply Rmult_le_compat_r; [lra|unfold Rdiv; lra]. }
  assert (A2 : (11 + 7 * norm (vval w')) * h <= (12 + 2201 / 100 * a) * h) by (apply Rmult_le_compat_r; lra).
  assert (A3 : 7072 / 10000 * norm (vsub (vval w') (vscale (val f) (vval w))) * V <= 7072 / 10000 * (u * (3143 / 1000 * a) + 2 * h) * V).
  { apply Rmult_le_compat_r; [exact V1|]. apply Rmult_le_compat_l; [lra|]. eapply Rle_trans; [exact Dw|]. apply Rplus_le_compat_r, Rmult_le_compat_l; lra. }
  assert (hV : h * V <= u / 1000000000 * V) by (apply Rmult_le_compat_r; lra). assert (uu : u * (u * V) <= / 1000000000 * (u * V)) by (apply Rmult_le_compat_r; lra). assert (uh : u * h <= / 1000000000 * h) by (apply Rmult_le_compat_r; lra).
  assert (0 <= a * (u * V)) by (apply Rmult_le_pos; lra). assert (0 <= a * h) by (apply Rmult_le_pos; lra). lra.
Qed.
Lemma se3_interp_near g r e f p : stands_for e (frot g, r) -> e <= / 2000 -> vfinite (ftrans g) -> norm (vval (ftrans g)) <= 2 ^ 500 ->
  finite f -> Rabs (val f) <= 2 ^ 480 -> Rabs (val f) * norm (vval (ftrans g)) <= 2 ^ 498 -> fse3_interp g f p ->
  exists w v part, (fse3_log g w v /\ norm (vval v) <= 188 / 100 * norm (vval (ftrans g)) + 23 * h) /\ rotation_by (vscale (val f) (vval w)) part /\ stands_for ((52 + 171 / 10 * Rabs (val f)) * u) (frot p, part) /\
    vfinite (ftrans p) /\ norm (vsub (vval (ftrans p)) (screw (vval w) (vval v) (val f))) <= (1148 + 3 * Rabs (val f)) * u * (Rabs (val f) * norm (vval v)) + (20 + 23 * Rabs (val f)) * h.
Proof.
  intros S He Ft HT Ff Bf BT (w & v & L & X). destruct (se3_log_moves g r e w v S He Ft HT L) as ((Fw & Fv) & Nw & _). destruct (se3_log_long g r e w v S He Ft HT L) as [V1 _]. pose proof (reach_ok _ Nw) as Nw'.
  pose proof h_pos as Hp. pose proof u_pos as Up. set (a := Rabs (val f)) in *. assert (a0 : 0 <= a) by apply Rabs_pos. set (T := norm (vval (ftrans g))) in *. assert (T0 : 0 <= T) by apply norm_nonneg. pose proof (norm_nonneg (vval v)) as V0.
  assert (h480 : 2 ^ 480 * 23 * h <= 1).
  { assert (P : 0 < 2 ^ 1000) by (apply pow_lt; lra). apply Rle_trans with (2 ^ 1000 * / 2 ^ 1000); [|rewrite Rinv_r; lra]. apply Rmult_le_compat; [apply Rmult_le_pos; [apply pow_le|]; lra|lra| |apply h_small].
    apply Rle_trans with (2 ^ 480 * 2 ^ 5); [apply Rmult_le_compat_l; [apply pow_le|]; lra|rewrite pow_sum; apply Rle_pow; [lra|lia]]. }
  assert (aV : a * norm (vval v) <= 188 / 100 * (a * T) + 23 * (a * h)) by (apply Rle_trans with (a * (188 / 100 * T + 23 * h)); [apply Rmult_le_compat_l; lra|lra]).
  assert (ah : 23 * (a * h) <= 1) by (eapply Rle_trans; [|exact h480]; replace (23 * (a * h)) with (a * (23 * h)) by ring; rewrite Rmult_assoc; apply Rmult_le_compat_r; lra).
  assert (Q : 2 ^ 499 = 2 * 2 ^ 498) by reflexivity. assert (Q2 : 100 <= 2 ^ 498) by (apply Rle_trans with (2 ^ 7); [lra|apply Rle_pow; [lra|lia]]).
  destruct (rotation_by_some (vscale (val f) (vval w))) as [part R]. exists w, v, part. split; [split; [exact L|exact V1]|]. split; [exact R|].
  pose proof PI_bounds as PB. split; [eapply (part_near w f _ (frot p) part Fw Ff Bf); [unfold reach_max in Nw'; lra|reflexivity|exact (proj1 X)|exact R]|].
  exact (part_translation w v f p Fw Fv Ff Nw' Bf ltac:(fold a; lra) X).
Qed.
(** Against the screw motion the pose was made with. *)
Lemma se3_interp_follows g r e f p w0 v0 d part : stands_for e (frot g, r) -> e <= / 2000 -> vfinite (ftrans g) -> norm (vval (ftrans g)) <= 2 ^ 500 ->
  finite f -> 0 <= val f <= 1 -> Rabs (val f) * norm (vval (ftrans g)) <= 2 ^ 498 -> fse3_interp g f p ->
  rotation_by w0 r -> norm w0 <= 3 -> norm (vsub (vval (ftrans g)) (screw w0 v0 1)) <= d -> rotation_by (vscale (val f) w0) part ->
  stands_for (217 / 10 * e + 327 * u) (frot p, part) /\
  vfinite (ftrans p) /\ norm (vsub (vval (ftrans p)) (screw w0 v0 (val f))) <= 4 * d + (59 * e + 4250 * u) * norm (vval (ftrans g)) + 67 * h.
Proof.
  intros S He Ft HT Ff Bf BT I R0 N0 D P. pose proof I as (w & v & L & X). assert (Af : Rabs (val f) <= 1) by (rewrite Rabs_right; lra). pose proof (Rabs_pos (val f)) as A0. pose proof u_pos as Up. pose proof h_pos as Hp.
  assert (e0 : 0 <= e) by (destruct S as (_ & _ & Y); eapply Rle_trans; [apply apart_pos|exact Y]).
  assert (B480 : Rabs (val f) <= 2 ^ 480) by (apply Rle_trans with 1; [exact Af|apply pow_R1_Rle; lra]).
  assert (IR : fso3_interp (frot g) f (frot p)) by (exists w; split; [exact (proj1 L)|exact (proj1 X)]).
  split.
  { destruct (interp_follows _ _ _ _ _ _ _ S He Ff B480 IR R0 N0 P) as (F1 & I1 & D1). split; [exact F1|]. split; [exact I1|]. cbn [fst snd] in *. eapply Rle_trans; [exact D1|].
    assert (Rabs (val f) * (217 / 10 * e) <= 1 * (217 / 10 * e)) by (apply Rmult_le_compat_r; lra). assert ((52 + 275 * Rabs (val f)) * u <= (52 + 275 * 1) * u) by (apply Rmult_le_compat_r; lra). lra. }
  clear w v L X IR. destruct (se3_interp_near g r e f p S He Ft HT Ff B480 BT I) as (w & v & q & (L & V1) & _ & _ & Fp & E). split; [exact Fp|].
  destruct (se3_log_recovers g r e w v w0 v0 d S He Ft HT L R0 N0 D) as [E1 E2]. set (T := norm (vval (ftrans g))) in *. assert (T0 : 0 <= T) by apply norm_nonneg. pose proof (norm_nonneg (vval v)) as V0.
  assert (d0 : 0 <= d) by (eapply Rle_trans; [apply norm_nonneg|exact D]).
  eapply Rle_trans; [apply (norm_triangle_sub _ (screw (vval w) (vval v) (val f)))|].
  assert (A : norm (vsub (vval (ftrans p)) (screw (vval w) (vval v) (val f))) <= 2164 * u * T + 44 * h).
  { eapply Rle_trans; [exact E|]. set (a := Rabs (val f)) in *.
    assert (a * norm (vval v) <= 1 * (188 / 100 * T + 23 * h)) by (apply Rmult_le_compat; lra).
    assert ((1148 + 3 * a) * u * (a * norm (vval v)) <= 1151 * u * (1 * (188 / 100 * T + 23 * h))) by (apply Rmult_le_compat; [apply Rmult_le_pos; lra|apply Rmult_le_pos; lra|apply Rmult_le_compat_r; lra|assumption]).
    assert (a * h <= 1 * h) by (apply Rmult_le_compat_r; lra). assert (u * h <= / 1000000000 * h) by (apply Rmult_le_compat_r; [lra|rewrite u_num; lra]). assert (0 <= u * T) by (apply Rmult_le_pos; lra). lra. }
  assert (V0' : norm v0 <= 187 / 100 * (T + d)).
  { pose proof PI_low as PL. assert (X : norm w0 < 2 * PI) by lra. rewrite <- (unscrew_screw w0 v0 X). eapply Rle_trans; [apply unscrew_bound; unfold reach_max; lra|]. apply Rmult_le_compat_l; [lra|].
    pose proof (norm_near (screw w0 v0 1) (vval (ftrans g))) as N. replace (vsub (screw w0 v0 1) (vval (ftrans g))) with (vneg (vsub (vval (ftrans g)) (screw w0 v0 1))) in N by vring. rewrite norm_neg in N. fold T in N. lra. }
  pose proof (parts_near (vval w) (vval v) w0 v0 (val f)) as Q. set (a := Rabs (val f)) in *. pose proof (norm_nonneg (vsub (vval v) v0)) as n1. pose proof (norm_nonneg (vsub (vval w) w0)) as n2. pose proof (norm_nonneg v0) as n3.
  assert (q1 : a * norm (vsub (vval v) v0) <= 1 * (187 / 100 * d + (38 * e + 1835 * u) * T + 23 * h)) by (apply Rmult_le_compat; lra).
  assert (aa : a * a <= 1 * 1) by (apply Rmult_le_compat; lra). assert (aa0 : 0 <= a * a) by (apply Rmult_le_pos; lra).
  assert (q2 : 7072 / 10000 * (a * a) * norm (vsub (vval w) w0) * norm v0 <= 7072 / 10000 * (153 / 10 * e + 182 * u) * (187 / 100 * (T + d))).
  { apply Rmult_le_compat; [apply Rmult_le_pos; [lra|exact n2]|exact n3| |exact V0']. apply Rle_trans with (7072 / 10000 * 1 * norm (vsub (vval w) w0)); [apply Rmult_le_compat_r; lra|lra]. }
  assert (eT : 0 <= e * T) by (apply Rmult_le_pos; lra). assert (uT : 0 <= u * T) by (apply Rmult_le_pos; lra). assert (ed : e * d <= / 2000 * d) by (apply Rmult_le_compat_r; lra). assert (ud : u * d <= / 1000000000 * d) by (apply Rmult_le_compat_r; [exact d0|rewrite u_num; lra]).
  lra.
Qed.
(** None and all of it. *)
Lemma se3_interp_none g r e f p : stands_for e (frot g, r) -> e <= / 2000 -> vfinite (ftrans g) -> norm (vval (ftrans g)) <= 2 ^ 500 -> finite f -> val f = 0 -> fse3_interp g f p ->
  mfinite (frot p) /\ mval (frot p) = mid /\ vfinite (ftrans p) /\ vval (ftrans p) = vzero.
Proof.
  intros S He Ft HT F F0 (w & v & L & X). destruct (se3_log_moves g r e w v S He Ft HT L) as (((Wx & Wy & Wz) & (Vx & Vy & Vz)) & _).
  assert (G : forall x, finite x -> finite (fmul x f) /\ val (fmul x f) = 0) by (intros x H; apply mul_zero; auto).
  destruct (G _ Wx), (G _ Wy), (G _ Wz), (G _ Vx), (G _ Vy), (G _ Vz).
  destruct (se3_exp_no_turn (FV (fmul (fx w) f) (fmul (fy w) f) (fmul (fz w) f)) (FV (fmul (fx v) f) (fmul (fy v) f) (fmul (fz v) f)) p) as (A & B & C & D); [repeat split; assumption|repeat split; assumption|unfold vval, vzero; cbn [fx fy fz]; congruence|exact X|].
  split; [exact A|]. split; [exact B|]. split; [exact C|]. rewrite D. unfold vval, vzero. cbn [fx fy fz]. congruence.
Qed.
Lemma se3_interp_all g p : fse3_interp g (of_int 1) p <-> exists w v, fse3_log g w v /\ fse3_exp w v p.
Proof. unfold fse3_interp. split; intros (w & v & L & X); exists w, v; (split; [exact L|]); rewrite !mul_one in *; destruct w, v; exact X. Qed.

(** Lengths. *)
Lemma length_near v l : vfinite v -> norm (vval v) <= 2 ^ 490 -> fnorm v l -> finite l /\ Rabs (val l - norm (vval v)) <= 255 / 100 * u * norm (vval v) + / 2 ^ 498.
Proof.
  intros F N (z & Z & ->). destruct two_500 as (T0 & T1 & T2). pose proof (norm_nonneg (vval v)) as L0. pose proof u_pos as Up. destruct (Rle_or_lt (/ 2 ^ 500) (norm (vval v))) as [A|A].
  - destruct (norm_near_big v z F A N Z) as (_ & _ & Fs & E). split; [exact Fs|]. assert (0 < / 2 ^ 498) by (apply Rinv_0_lt_compat, pow_lt; lra). lra.
  - destruct (squared_near v z F N Z) as (Fz & Pz & E). destruct (fsqrt_val z Fz Pz) as [Fs V]. split; [exact Fs|]. set (L := norm (vval v)) in *. rewrite V.
    set (t := / 2 ^ 500) in *. assert (E4 : / 2 ^ 498 = 4 * t) by (unfold t; replace (2 ^ 500) with (4 * 2 ^ 498) by (replace 4 with (2 ^ 2) by ring; rewrite pow_sum; reflexivity); field; apply pow_nonzero; lra).
    assert (LL : L * L <= t * t) by (apply Rmult_le_compat; lra). assert (HT : 4 * h <= t * t).
    { replace (t * t) with (/ 2 ^ 1000) by (unfold t; rewrite <- Rinv_mult, pow_sum; reflexivity). unfold h. rewrite <- (bpow_pow 1000), <- bpow_opp.
      replace 4 with (bpow radix2 2) by (cbn; lra). rewrite <- bpow_plus. apply bpow_le. lia. }
    assert (Hh : h <= t) by (eapply Rle_trans; [apply h_small|apply Rinv_le_contravar; [apply pow_lt; lra|apply Rle_pow; [lra|lia]]]).
    assert (Zb : val z <= (2 * t) * (2 * t)) by (apply Rabs_le_inv in E; rewrite u_num in *; nra).
    assert (Sq : sqrt (val z) <= 2 * t) by (apply sqrt_bound; lra). pose proof (sqrt_pos (val z)) as Sp. pose proof (rd_any (sqrt (val z))) as Rd. rewrite (Rabs_right (sqrt (val z))) in Rd by lra.
    rewrite E4. apply Rabs_le. apply Rabs_le_inv in Rd. assert (u * sqrt (val z) <= / 1000 * sqrt (val z)) by (apply Rmult_le_compat_r; [lra|rewrite u_num; lra]). assert (0 <= u * L) by (apply Rmult_le_pos; lra). lra.
Qed.
