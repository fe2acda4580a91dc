(** How screw motions depend on their rotation vectors, and how long what undoes them gets. *)
From Coq Require Import Reals Psatz ZArith.
From Flocq Require Import Core BinarySingleNaN.
From Verif Require Import Cpp RotSpec GeomModel RotProofs CoeffProofs DerivSpec DerivProofs ScrewSpec LieProofs DiffProofs FloatModel FloatSpec NrmSpec FloatProofs NrmProofs DriftModel DriftSpec DriftProofs DriftProofs2 SpinModel SpinSpec SpinProofs SpinProofs2 TwistModel TwistProofs TwistProofs2 TlogModel TlogSpec TlogProofs TlogProofs2 TlogProofs4 TlogProofs5 SlogModel SlogProofs SlogProofs2 SlogProofs3 SlogProofs4.
Local Open Scope R_scope.

Lemma mexp_by w : rotation_by w (mexp w).
Proof.
  destruct (vec3_zero_dec w) as [->|N]; [left; split; [reflexivity|apply mexp_zero]|]. right. split; [exact N|].
  assert (P : norm w <> 0) by (intro Z; apply N, norm_0, Z). assert (E : w = vscale (norm w) (direction w)) by (unfold direction; rewrite vscale_vscale, Rinv_r by exact P; destruct w as [a b c]; vring).
  assert (U : norm (direction w) = 1) by (unfold direction; pose proof (norm_nonneg w); rewrite norm_scale, Rabs_right by (apply Rle_ge; left; apply Rinv_0_lt_compat; lra); field; exact P).
  rewrite E at 1. rewrite mexp_unit by (unfold unit_vec; rewrite <- norm_sqr, U; ring). rewrite <- aa_turning by exact U. unfold angle_axis_matrix, aa. vring.
Qed.
Lemma screw_lipschitz w w' v : norm (vsub (screw w v 1) (screw w' v 1)) <= 7072 / 10000 * norm (vsub w w') * norm v.
Proof.
  set (d := norm (vsub w w')). set (e := vsub (screw w v 1) (screw w' v 1)). assert (d0 : 0 <= d) by apply norm_nonneg. pose proof (norm_nonneg v) as v0. pose proof (norm_nonneg e) as e0.
  set (D := fun x => vsub (mvec (mexp (vscale x w)) v) (mvec (mexp (vscale x w')) v)).
  set (f := fun x => dot (vsub (screw w v x) (screw w' v x)) e - 7072 / 10000 * d * norm v * norm e * (x * x)).
  assert (Df : forall x, derivable_pt_lim f x (dot (D x) e - 7072 / 10000 * d * norm v * norm e * (1 * x + x * 1))).
  { intro x. unfold f. apply dl_minus.
    - eapply dl_eq; [apply dl_dot; [apply dV_sub; apply screw_deriv|apply dV_const]|]. fold (D x). generalize (D x) (vsub (screw w v x) (screw w' v x)). intros. vring.
    - eapply dl_eq; [apply dl_mult; [apply dl_const|apply (dl_mult (fun t => t) (fun t => t)); apply dl_id]|]. cbv beta. ring. }
  assert (B : forall x, 0 <= x -> dot (D x) e <= 14143 / 10000 * (x * d) * norm v * norm e).
  { intros x X. eapply Rle_trans; [apply cauchy|]. apply Rmult_le_compat_r; [exact e0|]. unfold D. eapply Rle_trans; [apply norm_apart|]. apply Rmult_le_compat_r; [exact v0|].
    eapply Rle_trans; [apply (exp_lipschitz _ _ _ _ (mexp_by _) (mexp_by _))|]. replace (vsub (vscale x w) (vscale x w')) with (vscale x (vsub w w')) by vring. rewrite norm_scale, Rabs_right by lra. fold d. lra. }
  destruct (MVT_cor2 f _ 0 1 ltac:(lra) (fun c _ => Df c)) as (c & E & C1 & C2). unfold f in E. rewrite !screw_zero in E. replace (dot (vsub vzero vzero) e) with 0 in E by vring. fold e in E. change (dot e e) with (norm2 e) in E. rewrite <- norm_sqr in E.
  pose proof (B c ltac:(lra)) as Bc. assert (K : 0 <= d * norm v * norm e) by (repeat apply Rmult_le_pos; assumption). assert (K1 : 0 <= d * norm v * norm e * c) by (apply Rmult_le_pos; lra).
  assert (G : norm e * norm e <= 7072 / 10000 * d * norm v * norm e) by lra. destruct (Req_dec (norm e) 0) as [Z|NZ]; [rewrite Z; repeat apply Rmult_le_pos; lra|]. apply Rmult_le_reg_r with (norm e); [lra|exact G].
Qed.
Lemma screw_sub w v v' : vsub (screw w v 1) (screw w v' 1) = screw w (vsub v v') 1.
Proof. rewrite !screw_spun. unfold spun. vring. Qed.
Lemma screw_near w v v' : norm (vsub (screw w v 1) (screw w v' 1)) <= norm (vsub v v').
Proof. rewrite screw_sub. pose proof (screw_bound w (vsub v v') 1 ltac:(lra)). lra. Qed.
Lemma unscrew_sub w t t' : vsub (unscrew w t) (unscrew w t') = unscrew w (vsub t t').
Proof. unfold unscrew, untwist. vring. Qed.

(** The exact coefficient, up to a half turn. *)
Lemma ck_bounds L : 0 <= L <= reach_max -> 0 <= ck L <= 14 / 100 /\ 0 <= ck L * (L * L) <= 1 + / 1000.
Proof.
  intros [P Q]. unfold ck. destruct (Req_EM_T L 0) as [->|N]; [lra|]. split; [apply wk_small; lra|apply wk_bounds; lra].
Qed.
Lemma cross_square w t : norm2 (cross w t) + dot w t * dot w t = norm2 w * norm2 t.
Proof. unfold norm2. vring. Qed.
Lemma untwist_square k w t : norm2 (untwist k w t) = norm2 t + norm2 (cross w t) * (1 / 4 + k * k * norm2 w - 2 * k).
Proof. destruct w as [a b c], t as [x y z]. unfold untwist, norm2, dot, cross, vadd, vsub, vscale. cbn [vx vy vz]. field. Qed.
Lemma unscrew_long w t B : norm w <= reach_max -> 1 <= B -> 1 + norm w * norm w / 4 <= B * B -> norm (unscrew w t) <= B * norm t.
Proof.
  intros N B1 HB. pose proof (norm_nonneg w) as L0. pose proof (norm_nonneg t) as T0. destruct (ck_bounds (norm w) ltac:(lra)) as [[K0 K1] [K2 K3]]. set (L := norm w) in *. set (k := ck L) in *.
  apply norm_le_sqr; [apply Rmult_le_pos; lra|].
  assert (E : norm2 (unscrew w t) = norm2 t + norm2 (cross w t) * (1 / 4 + k * k * norm2 w - 2 * k)) by (unfold unscrew; fold L k; apply untwist_square).
  assert (C : norm2 (cross w t) <= L * L * norm2 t) by (unfold L; rewrite norm_sqr, <- cross_square; nra). assert (C0 : 0 <= norm2 (cross w t)) by apply norm2_nonneg.
  rewrite E. replace (norm2 w) with (L * L) by apply norm_sqr. replace (norm2 t) with (norm t * norm t) in * by apply norm_sqr. set (T := norm t) in *.
  replace (B * T * (B * T)) with (B * B * (T * T)) by ring. assert (TT : 0 <= T * T) by nra.
  destruct (Rle_or_lt (1 / 4 + k * k * (L * L) - 2 * k) 0) as [G|G]; [assert (norm2 (cross w t) * (1 / 4 + k * k * (L * L) - 2 * k) <= 0) by nra; nra|].
  apply Rle_trans with (T * T + L * L * (T * T) * (1 / 4 + k * k * (L * L) - 2 * k)); [apply Rplus_le_compat_l, Rmult_le_compat_r; lra|].
  replace (T * T + L * L * (T * T) * (1 / 4 + k * k * (L * L) - 2 * k)) with (T * T * (1 + L * L / 4 + k * (L * L) * (k * (L * L)) - 2 * (k * (L * L)))) by field.
  rewrite (Rmult_comm (B * B)). apply Rmult_le_compat_l; [exact TT|]. nra.
Qed.
Lemma unscrew_bound w t : norm w <= reach_max -> norm (unscrew w t) <= 187 / 100 * norm t.
Proof. intro N. apply unscrew_long; [exact N|lra|]. pose proof PI_bounds. pose proof (norm_nonneg w). unfold reach_max in N. nra. Qed.
Lemma unscrew_short w t : norm w <= 2 -> norm (unscrew w t) <= 142 / 100 * norm t.
Proof. intro N. pose proof PI_bounds. pose proof (norm_nonneg w). apply unscrew_long; [unfold reach_max; lra|lra|]. nra. Qed.
Lemma unscrew_lipschitz w w' t : norm w <= reach_max -> norm w' <= reach_max -> norm (vsub (unscrew w t) (unscrew w' t)) <= 248 / 100 * norm (vsub w w') * norm t.
Proof.
  intros N N'. pose proof PI_bounds as PB. assert (X : norm w < 2 * PI) by (unfold reach_max in N; lra). assert (X' : norm w' < 2 * PI) by (unfold reach_max in N'; lra).
  set (v := unscrew w' t). rewrite <- (unscrew_screw w v X). rewrite unscrew_sub. eapply Rle_trans; [apply unscrew_bound, N|]. rewrite <- (screw_unscrew w' t X') at 1. fold v.
  assert (norm (vsub (screw w' v 1) (screw w v 1)) <= 7072 / 10000 * norm (vsub w w') * norm v). { replace (vsub (screw w' v 1) (screw w v 1)) with (vneg (vsub (screw w v 1) (screw w' v 1))) by (generalize (screw w' v 1) (screw w v 1); intros; vring). rewrite norm_neg. apply screw_lipschitz. }
  pose proof (unscrew_bound w' t N') as V. fold v in V. pose proof (norm_nonneg (vsub w w')) as D0. pose proof (norm_nonneg t) as T0. pose proof (norm_nonneg v).
  assert (7072 / 10000 * norm (vsub w w') * norm v <= 7072 / 10000 * norm (vsub w w') * (187 / 100 * norm t)) by (apply Rmult_le_compat_l; lra). assert (0 <= norm (vsub w w') * norm t) by (apply Rmult_le_pos; lra). lra.
Qed.

(** ** The code *)
Lemma untwist_off k k' w t : norm (vsub (untwist k w t) (untwist k' w t)) <= Rabs (k - k') * (norm w * norm w) * norm t.
Proof.
  replace (vsub (untwist k w t) (untwist k' w t)) with (vscale (k - k') (cross w (cross w t))) by (unfold untwist; vring). rewrite norm_scale, Rmult_assoc. apply Rmult_le_compat_l; [apply Rabs_pos|].
  eapply Rle_trans; [apply norm_cross_le|]. rewrite Rmult_assoc. apply Rmult_le_compat_l; [apply norm_nonneg|apply norm_cross_le].
Qed.
Lemma log_translation w t z a b c : vfinite w -> vfinite t -> norm (vval w) <= reach_max -> norm (vval t) <= 2 ^ 501 -> fsquared_norm w z -> fexp_diff_coeffs z a b c ->
  let v := funtwist (flog_coeff z a b c) w t in let off := norm (vsub (vval v) (unscrew (vval w) (vval t))) in
  vfinite v /\ off <= 1383 * u * norm (vval t) + 23 * h /\ (norm (vval w) <= 2 -> off <= 158 * u * norm (vval t) + 23 * h).
Proof.
  intros Fw Ft N T1 Z C v off. destruct (log_coeff_near w z a b c Fw N Z C) as (Fk & E1 & E2 & E3). pose proof PI_bounds as PB. pose proof (norm_nonneg (vval w)) as L0. pose proof (norm_nonneg (vval t)) as T0. pose proof u_pos as Up.
  destruct (ck_bounds (norm (vval w)) ltac:(lra)) as [[K0 K1] [K2 K3]]. set (k := flog_coeff z a b c) in *. set (L := norm (vval w)) in *. set (T := norm (vval t)) in *. assert (LL : 0 <= L * L) by nra.
  assert (P1 : Rabs (val k) <= 1 / 5) by (pose proof (off_bound _ _ _ (14 / 100) E3 ltac:(rewrite Rabs_right; lra)); lra).
  assert (P2 : Rabs (val k) * (L * L) <= 102 / 100).
  { assert (D : Rabs (val k * (L * L) - ck L * (L * L)) <= 1351 * u) by (rewrite <- Rmult_minus_distr_r, abs_scale by lra; exact E1). rewrite <- abs_scale by lra. pose proof (off_bound _ _ _ (1 + / 1000) D ltac:(rewrite Rabs_right; lra)). rewrite u_num in *. lra. }
  destruct (untwist_rounding k w t Fk Fw Ft ltac:(fold L; unfold reach_max in N; lra) T1 P1 P2) as [Fv Ev]. fold v L T in Fv, Ev. split; [exact Fv|].
  assert (G : forall e, Rabs (val k - ck L) * (L * L) <= e -> off <= e * T + ((172 / 10 + 452 / 100 * L) * u * T + 23 * h)).
  { intros e E. unfold off. eapply Rle_trans; [apply (norm_triangle_sub _ (untwist (val k) (vval w) (vval t)))|]. assert (norm (vsub (untwist (val k) (vval w) (vval t)) (unscrew (vval w) (vval t))) <= e * T); [|lra].
    eapply Rle_trans; [apply untwist_off|]. apply Rmult_le_compat_r; [exact T0|exact E]. }
  assert (UT : 0 <= u * T) by (apply Rmult_le_pos; lra). split; [|intro L2].
  - eapply Rle_trans; [apply (G _ E1)|]. assert ((172 / 10 + 452 / 100 * L) * (u * T) <= 32 * (u * T)) by (apply Rmult_le_compat_r; [exact UT|]; unfold reach_max in N; lra). lra.
  - eapply Rle_trans; [apply (G _ (E2 L2))|]. assert ((172 / 10 + 452 / 100 * L) * (u * T) <= 27 * (u * T)) by (apply Rmult_le_compat_r; [exact UT|]; lra). lra.
Qed.
