(** Errors of the screw motions that a segment of a time curve of poses is made of. *)
From Coq Require Import Reals Lra Lia Psatz.
From Flocq Require Import Core BinarySingleNaN.
From Verif Require Import Cpp FloatModel FloatSpec FloatProofs NrmSpec NrmProofs Vec RotSpec ScrewSpec RotProofs CoeffProofs DiffProofs DriftModel DriftSpec DriftProofs SpinModel SpinSpec SpinProofs2 TwistModel TwistProofs2 TwistProofs3 TlogModel TlogProofs TlogProofs5 TlogProofs6 SlogProofs5 SlogProofs6 SlogProofs7 QfModel QfSpec QfProofs FtsModel FtsSpec FtsProofs FtsProofs2 FtsProofs3 FtsProofs4 FpsModel FpsSpec FpsProofs FpsProofs2.
Local Open Scope R_scope.

Lemma screw_long w v s : norm (screw w v s) <= Rabs s * norm v.
Proof.
  rewrite SlogProofs7.screw_part. eapply Rle_trans; [apply screw_bound; lra|]. rewrite norm_scale. lra.
Qed.
Lemma exp_place w v g w0 v0 ew ev Lw Lv : vfinite w -> vfinite v -> norm (vval w) <= Lw -> Lw <= 2 ^ 490 -> norm (vval v) <= Lv -> Lv <= 2 ^ 500 ->
  norm (vsub (vval w) w0) <= ew -> norm (vsub (vval v) v0) <= ev -> fse3_exp w v g ->
  vec_within (1145 * u * Lv + (11 + 7 * Lw) * h + ev + 7072 / 10000 * ew * norm v0) (ftrans g) (screw w0 v0 1).
Proof.
  intros Fw Fv Nw Bw Nv Bv Dw Dv E. destruct (rotation_by_some (vval w)) as [r R]. destruct (se3_exp_near w v r g Fw Fv ltac:(lra) ltac:(lra) R E) as (_ & F & D). split; [exact F|].
  fold h in D. pose proof u_pos as Up. pose proof h_pos as Hp. pose proof (norm_nonneg (vval v)) as V0. pose proof (norm_nonneg v0) as V1. pose proof (inv_reach (norm (vval w))) as I.
  pose proof (norm_triangle_sub (vval (ftrans g)) (screw (vval w) (vval v) 1) (screw w0 v0 1)) as T. pose proof (screws_near (vval w) (vval v) w0 v0) as N.
  assert (A1 : (76 + 203 / 100 / Rmax (norm (vval w)) (19 / 10000)) * u * norm (vval v) <= 1145 * u * Lv).
  { apply Rmult_le_compat; [|exact V0| |exact Nv].
    - apply Rmult_le_pos; [|lra]. assert (0 < / Rmax (norm (vval w)) (19 / 10000)) by (apply Rinv_0_lt_compat; pose proof (Rmax_r (norm (vval w)) (19 / 10000)); lra). unfold Rdiv at 1. lra.
    - apply Rmult_le_compat_r; [lra|]. unfold Rdiv at 1. lra. }
  assert (A2 : (11 + 7 * norm (vval w)) * h <= (11 + 7 * Lw) * h) by (apply Rmult_le_compat_r; lra).
  assert (A3 : 7072 / 10000 * norm (vsub (vval w) w0) * norm v0 <= 7072 / 10000 * ew * norm v0) by (apply Rmult_le_compat_r; [exact V1|lra]). lra.
Qed.
Lemma factor_place k t s w v w0 v0 ew ev Lw Lv B0 B1 B2 g x : near_time t s -> vfinite w -> vfinite v -> norm (vsub (vval w) w0) <= ew -> norm (vsub (vval v) v0) <= ev ->
  norm (vval w) <= Lw -> Lw <= 2 ^ 400 -> norm (vval v) <= Lv -> Lv <= 2 ^ 480 ->
  Rabs (hermite k s) <= B0 -> Rabs (hermite' k s) <= B1 -> Rabs (hermite'' k s) <= B2 -> B0 <= 1 -> B1 <= 100 -> B2 <= 100 ->
  fse3_exp (fscale (f_a (computed k t)) w) (fscale (f_a (computed k t)) v) g -> screw_stage k w0 v0 s x ->
  (vec_within (1145 * u * (2 * Lv + 2 * h) + (25 + 14 * Lw) * h + (u * ((B0 + 524 * u) * Lv) + 2 * h + 524 * u * Lv + B0 * ev) +
      7072 / 10000 * (u * ((B0 + 524 * u) * Lw) + 2 * h + 524 * u * Lw + B0 * ew) * (B0 * norm v0)) (ftrans g) (place x) /\ norm (place x) <= B0 * norm v0) /\
  (vec_within (u * ((B1 + 1060 * u) * Lv) + 2 * h + 1060 * u * Lv + B1 * ev) (fscale (f_da (computed k t)) v) (slide x) /\ norm (slide x) <= B1 * norm v0) /\
  (vec_within (u * ((B2 + 2408 * u) * Lv) + 2 * h + 2408 * u * Lv + B2 * ev) (fscale (f_d2a (computed k t)) v) (surge x) /\ norm (surge x) <= B2 * norm v0).
Proof.
  intros Ft Fw Fv Dw Dv Nw Bw Nv Bv H0 H1 H2 HB0 HB1 HB2 E (_ & P & V & A). rewrite P, V, A.
  pose proof u_pos as Up. pose proof h_pos as Hp. pose proof h_small_u as Hs. assert (Us : 3000 * u <= 1 / 10) by (rewrite u_num; lra). destruct (accuracy_at k t s Ft) as (F0 & F1 & F2 & A0 & A1 & A2).
  assert (B9 : 2 ^ 480 <= 2 ^ 900) by (apply Rle_pow; [lra|lia]). assert (B4 : 2 ^ 400 <= 2 ^ 900) by (apply Rle_pow; [lra|lia]). assert (B10 : 1000 <= 2 ^ 10) by lra.
  pose proof (norm_nonneg (vval w)) as W0. pose proof (norm_nonneg (vval v)) as V0. pose proof (Rabs_pos (hermite k s)) as R0.
  destruct (scaled_by _ _ w w0 _ B0 ew Lw F0 Fw A0 H0 ltac:(lra) Dw Nw ltac:(lra)) as (G0 & X0 & _ & N0).
  destruct (scaled_by _ _ v v0 _ B0 ev Lv F0 Fv A0 H0 ltac:(lra) Dv Nv ltac:(lra)) as (G0' & X0' & Y0' & N0').
  destruct (scaled_by _ _ v v0 _ B1 ev Lv F1 Fv A1 H1 ltac:(lra) Dv Nv ltac:(lra)) as (G1 & X1 & Y1 & _).
  destruct (scaled_by _ _ v v0 _ B2 ev Lv F2 Fv A2 H2 ltac:(lra) Dv Nv ltac:(lra)) as (G2 & X2 & Y2 & _).
  split; [|split; split; [split|exact Y1|split|exact Y2]; assumption].
  assert (M1 : (B0 + 524 * u) * Lw + u * ((B0 + 524 * u) * Lw) <= 2 * Lw). { assert ((B0 + 524 * u) * Lw <= (11 / 10) * Lw) by (apply Rmult_le_compat_r; lra). assert (u * ((B0 + 524 * u) * Lw) <= (1 / 10) * ((B0 + 524 * u) * Lw)) by (apply Rmult_le_compat_r; [apply Rmult_le_pos; lra|lra]). lra. }
  assert (M2 : (B0 + 524 * u) * Lv + u * ((B0 + 524 * u) * Lv) <= 2 * Lv). { assert ((B0 + 524 * u) * Lv <= (11 / 10) * Lv) by (apply Rmult_le_compat_r; lra). assert (u * ((B0 + 524 * u) * Lv) <= (1 / 10) * ((B0 + 524 * u) * Lv)) by (apply Rmult_le_compat_r; [apply Rmult_le_pos; lra|lra]). lra. }
  assert (P4 : 4 * 2 ^ 400 <= 2 ^ 490) by (replace 4 with (2 ^ 2) by ring; rewrite <- pow_add; apply Rle_pow; [lra|lia]). assert (P5 : 4 * 2 ^ 480 <= 2 ^ 500) by (replace 4 with (2 ^ 2) by ring; rewrite <- pow_add; apply Rle_pow; [lra|lia]).
  assert (O4 : 1 <= 2 ^ 400) by (apply pow_R1_Rle; lra). assert (O5 : 1 <= 2 ^ 480) by (apply pow_R1_Rle; lra).
  split; [|eapply Rle_trans; [apply screw_long|apply Rmult_le_compat_r; [apply norm_nonneg|exact H0]]].
  rewrite SlogProofs7.screw_part. destruct (exp_place _ _ g _ _ _ _ (2 * Lw + 2 * h) (2 * Lv + 2 * h) G0 G0' ltac:(lra) ltac:(lra) ltac:(lra) ltac:(lra) X0 X0' E) as [F D]. split; [exact F|]. eapply Rle_trans; [exact D|].
  set (EV := u * ((B0 + 524 * u) * Lv) + 2 * h + 524 * u * Lv + B0 * ev) in *. set (EW := u * ((B0 + 524 * u) * Lw) + 2 * h + 524 * u * Lw + B0 * ew) in *.
  assert (E0 : 0 <= EW) by (eapply Rle_trans; [apply norm_nonneg|exact X0]).
  assert (7072 / 10000 * EW * norm (vscale (hermite k s) v0) <= 7072 / 10000 * EW * (B0 * norm v0)) by (apply Rmult_le_compat_l; [lra|exact Y0']).
  assert ((11 + 7 * (2 * Lw + 2 * h)) * h <= (25 + 14 * Lw) * h) by (apply Rmult_le_compat_r; [lra|]; assert (h <= / 1000) by (rewrite u_num in *; lra); lra). lra.
Qed.
