(** SE3::log, SE3::arc_length and SE3::interp in double precision: C71. *)
From Coq Require Import Reals Psatz ZArith.
From Flocq Require Import Core BinarySingleNaN.
From Verif Require Import Cpp RotSpec GeomModel RotProofs CoeffProofs DerivSpec DerivProofs ScrewSpec LieProofs DiffProofs FloatModel FloatSpec NrmSpec FloatProofs NrmProofs DriftModel DriftSpec DriftProofs DriftProofs2 SpinModel SpinSpec SpinProofs SpinProofs2 TwistModel TwistProofs TwistProofs2 TwistProofs3 TlogModel TlogSpec TlogProofs TlogProofs2 TlogProofs4 TlogProofs5 TlogProofs6 SlogModel SlogProofs SlogProofs2 SlogProofs3 SlogProofs4 SlogProofs5.
Local Open Scope R_scope.

Lemma some_se3_log g : exists w v, fse3_log g w v.
Proof.
  destruct (some_log (frot g)) as [w W]. destruct (some_dot (fx w) (fy w) (fz w) (fx w) (fy w) (fz w)) as [z Z]. destruct (some_coeffs z) as (a & b & c & C).
  exists w. eexists. split; [exact W|]. exists z, a, b, c. split; [exact Z|]. split; [exact C|reflexivity].
Qed.
Lemma some_arc_length g : exists l, fse3_arc_length g l.
Proof.
  destruct (some_se3_log g) as (w & v & L). destruct (some_dot (fx v) (fy v) (fz v) (fx v) (fy v) (fz v)) as [z Z]. exists (fsqrt z), w, v. split; [exact L|]. exists z. split; [exact Z|reflexivity].
Qed.
Lemma some_se3_interp g f : exists p, fse3_interp g f p.
Proof.
  destruct (some_se3_log g) as (w & v & L). destruct (some_se3_exp (FV (fmul (fx w) f) (fmul (fy w) f) (fmul (fz w) f)) (FV (fmul (fx v) f) (fmul (fy v) f) (fmul (fz v) f))) as [p P].
  exists p, w, v. split; assumption.
Qed.
Lemma reach_ok x : x <= PI + 22 * u -> x <= reach_max.
Proof. intro H. unfold reach_max. assert (22 * u <= / 1000000) by (rewrite u_num; lra). lra. Qed.

Lemma se3_log_near g r e w v : stands_for e (frot g, r) -> e <= / 2000 -> vfinite (ftrans g) -> norm (vval (ftrans g)) <= 2 ^ 500 -> fse3_log g w v ->
  let T := norm (vval (ftrans g)) in let off := norm (vsub (vval v) (unscrew (vval w) (vval (ftrans g)))) in
  vfinite w /\ vfinite v /\ norm (vval w) <= PI + 22 * u /\ turns_within (85 / 10 * e + 101 * u) (vval w) r /\
  off <= 1383 * u * T + 23 * h /\ (norm (vval w) <= 2 -> off <= 158 * u * T + 23 * h).
Proof.
  intros S He Ft HT (W & z & a & b & c & Z & C & ->) T off. destruct (log_near _ _ _ _ S He W) as (Fw & Nw & Tw).
  assert (H5 : norm (vval (ftrans g)) <= 2 ^ 501) by (eapply Rle_trans; [exact HT|apply Rle_pow; [lra|lia]]).
  destruct (log_translation w (ftrans g) z a b c Fw Ft (reach_ok _ Nw) H5 Z C) as (Fv & E1 & E2).
  split; [exact Fw|]. split; [exact Fv|]. split; [exact Nw|]. split; [exact Tw|]. split; [exact E1|exact E2].
Qed.
Lemma two_pi x : x <= PI + 22 * u -> x < 2 * PI.
Proof. intro H. pose proof PI_bounds. apply reach_ok in H. unfold reach_max in H. lra. Qed.
Lemma se3_log_moves g r e w v : stands_for e (frot g, r) -> e <= / 2000 -> vfinite (ftrans g) -> norm (vval (ftrans g)) <= 2 ^ 500 -> fse3_log g w v ->
  let T := norm (vval (ftrans g)) in let off := norm (vsub (screw (vval w) (vval v) 1) (vval (ftrans g))) in
  (vfinite w /\ vfinite v) /\ norm (vval w) <= PI + 22 * u /\ turns_within (85 / 10 * e + 101 * u) (vval w) r /\
  off <= 1383 * u * T + 23 * h /\ (norm (vval w) <= 2 -> off <= 158 * u * T + 23 * h).
Proof.
  intros S He Ft HT L T off. destruct (se3_log_near g r e w v S He Ft HT L) as (Fw & Fv & Nw & Tw & E1 & E2). fold T in E1, E2.
  assert (O : off <= norm (vsub (vval v) (unscrew (vval w) (vval (ftrans g))))). { unfold off. rewrite <- (screw_unscrew (vval w) (vval (ftrans g)) (two_pi _ Nw)) at 1. apply screw_near. }
  split; [split; assumption|]. split; [exact Nw|]. split; [exact Tw|]. split; [lra|]. intro L2. specialize (E2 L2). lra.
Qed.
(** How long the logged translation is. *)
Lemma se3_log_long g r e w v : stands_for e (frot g, r) -> e <= / 2000 -> vfinite (ftrans g) -> norm (vval (ftrans g)) <= 2 ^ 500 -> fse3_log g w v ->
  let T := norm (vval (ftrans g)) in norm (vval v) <= 188 / 100 * T + 23 * h /\ (norm (vval w) <= 2 -> norm (vval v) <= 143 / 100 * T + 23 * h).
Proof.
  intros S He Ft HT L T. destruct (se3_log_near g r e w v S He Ft HT L) as (Fw & Fv & Nw & Tw & E1 & E2). fold T in E1, E2. pose proof (norm_near (vval v) (unscrew (vval w) (vval (ftrans g)))) as N.
  assert (T0 : 0 <= T) by apply norm_nonneg. assert (uT : u * T <= / 1000000 * T) by (apply Rmult_le_compat_r; [exact T0|rewrite u_num; lra]).
  pose proof (unscrew_bound (vval w) (vval (ftrans g)) (reach_ok _ Nw)) as B. fold T in B. split; [lra|]. intro L2. specialize (E2 L2). pose proof (unscrew_short (vval w) (vval (ftrans g)) L2) as B2. fold T in B2. lra.
Qed.
Lemma se3_log_recovers g r e w v w0 v0 d : stands_for e (frot g, r) -> e <= / 2000 -> vfinite (ftrans g) -> norm (vval (ftrans g)) <= 2 ^ 500 -> fse3_log g w v ->
  rotation_by w0 r -> norm w0 <= 3 -> norm (vsub (vval (ftrans g)) (screw w0 v0 1)) <= d ->
  norm (vsub (vval w) w0) <= 153 / 10 * e + 182 * u /\ norm (vsub (vval v) v0) <= 187 / 100 * d + (38 * e + 1835 * u) * norm (vval (ftrans g)) + 23 * h.
Proof.
  intros S He Ft HT L R0 N0 D. destruct (se3_log_near g r e w v S He Ft HT L) as (Fw & Fv & Nw & Tw & E1 & _). pose proof L as (W & _). pose proof PI_low as PL. assert (L0 : norm w0 <= reach_max) by (unfold reach_max; lra).
  pose proof (log_recovers _ _ _ _ _ S He W R0 N0) as Q. split; [exact Q|]. set (t := vval (ftrans g)) in *. pose proof (norm_nonneg t) as T0.
  assert (e0 : 0 <= e) by (destruct S as (_ & _ & X); eapply Rle_trans; [apply apart_pos|exact X]). pose proof u_pos as Up.
  eapply Rle_trans; [apply (norm_triangle_sub _ (unscrew (vval w) t))|]. eapply Rle_trans; [apply Rplus_le_compat_l, (norm_triangle_sub _ (unscrew w0 t))|].
  pose proof (unscrew_lipschitz (vval w) w0 t (reach_ok _ Nw) L0) as Li. assert (X : norm w0 < 2 * PI) by lra.
  assert (K : norm (vsub (unscrew w0 t) v0) <= 187 / 100 * d). { rewrite <- (unscrew_screw w0 v0 X) at 1. rewrite unscrew_sub. eapply Rle_trans; [apply unscrew_bound, L0|]. lra. }
  assert (248 / 100 * norm (vsub (vval w) w0) * norm t <= 248 / 100 * (153 / 10 * e + 182 * u) * norm t) by (apply Rmult_le_compat_r; [exact T0|]; lra).
  assert (0 <= e * norm t) by (apply Rmult_le_pos; lra). assert (0 <= u * norm t) by (apply Rmult_le_pos; lra). lra.
Qed.
Lemma inv_reach L : / Rmax L (19 / 10000) <= 5264 / 10.
Proof. replace (5264 / 10) with (/ (10 / 5264)) by field. apply Rinv_le_contravar; [lra|]. eapply Rle_trans; [|apply Rmax_r]. lra. Qed.
Lemma inv_far L : 2 < L -> / Rmax L (19 / 10000) <= 1 / 2.
Proof. intro H. replace (1 / 2) with (/ 2) by field. apply Rinv_le_contravar; [lra|]. eapply Rle_trans; [|apply Rmax_l]. lra. Qed.
Lemma se3_log_exp w0 v0 g w v : vfinite w0 -> vfinite v0 -> norm (vval w0) <= 3 -> norm (vval v0) <= 2 ^ 499 -> fse3_exp w0 v0 g -> fse3_log g w v ->
  vfinite w /\ vfinite v /\ norm (vsub (vval w) (vval w0)) <= 1150 * u /\ norm (vsub (vval v) (vval v0)) <= 6400 * u * norm (vval v0) + 90 * h.
Proof.
  intros F0 G0 N0 V0 X L. pose proof u_pos as Up. pose proof h_pos as Hp. destruct (rotation_by_some (vval w0)) as [r R]. set (V := norm (vval v0)) in *. assert (V1 : 0 <= V) by apply norm_nonneg.
  assert (B5 : 2 ^ 500 = 2 * 2 ^ 499) by reflexivity. assert (B1 : 1 <= 2 ^ 499) by (apply pow_R1_Rle; lra). assert (h1 : h <= / 1000000) by (pose proof h_small_u; rewrite u_num in *; lra).
  assert (B9 : norm (vval w0) <= 2 ^ 490) by (apply Rle_trans with (2 ^ 2); [lra|apply Rle_pow; [lra|lia]]).
  destruct (se3_exp_near w0 v0 r g F0 G0 B9 ltac:(fold V; lra) R X) as (S & Fg & D). fold V in D. fold h in D. set (L0 := norm (vval w0)) in *. assert (L1 : 0 <= L0) by apply norm_nonneg.
  assert (D' : norm (vsub (vval (ftrans g)) (screw (vval w0) (vval v0) 1)) <= 1145 * u * V + 32 * h).
  { eapply Rle_trans; [exact D|]. pose proof (inv_reach L0) as I. assert ((76 + 203 / 100 / Rmax L0 (19 / 10000)) * (u * V) <= 1145 * (u * V)) by (apply Rmult_le_compat_r; [apply Rmult_le_pos; lra|unfold Rdiv; lra]). assert (L0 * h <= 3 * h) by (apply Rmult_le_compat_r; lra). lra. }
  assert (uV : u * V <= / 1000000000 * V) by (apply Rmult_le_compat_r; [exact V1|rewrite u_num; lra]). assert (uV0 : 0 <= u * V) by (apply Rmult_le_pos; lra).
  assert (Tn : norm (vval (ftrans g)) <= V + (1145 * u * V + 32 * h)) by (pose proof (norm_near (vval (ftrans g)) (screw (vval w0) (vval v0) 1)); pose proof (screw_bound (vval w0) (vval v0) 1 ltac:(lra)) as SB; fold V in SB; lra).
  assert (He : (51 + 4 * L0) * u <= 63 * u) by (apply Rmult_le_compat_r; lra). assert (He' : (51 + 4 * L0) * u <= / 2000) by (rewrite u_num in *; lra).
  assert (HT : norm (vval (ftrans g)) <= 2 ^ 500) by (rewrite B5; lra).
  destruct (se3_log_near g r _ w v S He' Fg HT L) as (Fw & Fv & _). destruct (se3_log_recovers g r _ w v (vval w0) (vval v0) _ S He' Fg HT L R N0 D') as [E1 E2].
  split; [exact Fw|]. split; [exact Fv|]. split; [lra|]. eapply Rle_trans; [exact E2|]. set (T := norm (vval (ftrans g))) in *. assert (T0 : 0 <= T) by apply norm_nonneg.
  assert (Q : (38 * ((51 + 4 * L0) * u) + 1835 * u) * T <= 4229 * u * (V + (1145 * u * V + 32 * h))) by (apply Rmult_le_compat; try lra; apply Rplus_le_le_0_compat; [apply Rmult_le_pos; [lra|apply Rmult_le_pos; lra]|lra]).
  assert (u * (u * V) <= / 1000000000 * (u * V)) by (apply Rmult_le_compat_r; [exact uV0|rewrite u_num; lra]). assert (u * h <= / 1000000000 * h) by (apply Rmult_le_compat_r; [lra|rewrite u_num; lra]). lra.
Qed.
Lemma se3_exp_log g r e w v g' : stands_for e (frot g, r) -> e <= / 2000 -> vfinite (ftrans g) -> norm (vval (ftrans g)) <= 2 ^ 499 -> fse3_log g w v -> fse3_exp w v g' ->
  stands_for (85 / 10 * e + 165 * u) (frot g', r) /\ vfinite (ftrans g') /\ norm (vsub (vval (ftrans g')) (vval (ftrans g))) <= 1800 * u * norm (vval (ftrans g)) + 60 * h.
Proof.
  intros S He Ft HT L X. assert (B5 : 2 ^ 500 = 2 * 2 ^ 499) by reflexivity. assert (B1 : 1 <= 2 ^ 499) by (apply pow_R1_Rle; lra). pose proof h_pos as Hp. assert (h1 : h <= / 1000000) by (pose proof h_small_u; rewrite u_num in *; lra). pose proof u_pos as Up.
  assert (HT' : norm (vval (ftrans g)) <= 2 ^ 500) by lra. destruct (se3_log_moves g r e w v S He Ft HT' L) as ((Fw & Fv) & Nw & Tw & E1 & E2). destruct (se3_log_long g r e w v S He Ft HT' L) as [V1 V2].
  set (T := norm (vval (ftrans g))) in *. assert (T0 : 0 <= T) by apply norm_nonneg. pose proof L as (W & _). destruct (rotation_by_some (vval w)) as [r' R']. pose proof PI_bounds as PB. pose proof (norm_nonneg (vval w)) as L0. pose proof (reach_ok _ Nw) as Nw'. unfold reach_max in Nw'.
  assert (B9 : norm (vval w) <= 2 ^ 490) by (apply Rle_trans with (2 ^ 2); [lra|apply Rle_pow; [lra|lia]]).
  destruct (se3_exp_near w v r' g' Fw Fv B9 ltac:(rewrite B5; lra) R' X) as (S' & Fg & D). split; [exact (exp_log _ _ _ _ _ S He W (proj1 X))|]. split; [exact Fg|].
  eapply Rle_trans; [apply (norm_triangle_sub _ (screw (vval w) (vval v) 1))|]. fold h in D. set (L1 := norm (vval w)) in *. set (V := norm (vval v)) in *. assert (V0 : 0 <= V) by apply norm_nonneg.
  assert (Lh : L1 * h <= 315 / 100 * h) by (apply Rmult_le_compat_r; lra). assert (uT0 : 0 <= u * T) by (apply Rmult_le_pos; lra). assert (uh : u * h <= / 1000000000 * h) by (apply Rmult_le_compat_r; [lra|rewrite u_num; lra]). assert (uV0 : 0 <= u * V) by (apply Rmult_le_pos; lra).
  destruct (Rle_or_lt L1 2) as [G|G].
  - specialize (E2 G). specialize (V2 G). pose proof (inv_reach L1) as I. assert ((76 + 203 / 100 / Rmax L1 (19 / 10000)) * (u * V) <= 1145 * (u * V)) by (apply Rmult_le_compat_r; [exact uV0|unfold Rdiv; lra]).
    assert (u * V <= u * (143 / 100 * T + 23 * h)) by (apply Rmult_le_compat_l; lra). lra.
  - pose proof (inv_far L1 G) as I. assert ((76 + 203 / 100 / Rmax L1 (19 / 10000)) * (u * V) <= 78 * (u * V)) by (apply Rmult_le_compat_r; [exact uV0|unfold Rdiv; lra]).
    assert (u * V <= u * (188 / 100 * T + 23 * h)) by (apply Rmult_le_compat_l; lra). lra.
Qed.
