(** Errors of the factors of a segment of a time curve of poses, in units. *)
From Coq Require Import Reals Lra Lia Psatz.
From Flocq Require Import Core BinarySingleNaN.
From Verif Require Import Cpp FloatModel FloatSpec FloatProofs NrmSpec NrmProofs Vec RotSpec ScrewSpec RotProofs CoeffProofs DiffProofs DerivProofs DriftModel DriftSpec DriftProofs SpinModel SpinSpec SpinProofs2 TwistModel TwistProofs2 TwistProofs3 TlogModel TlogProofs TlogProofs5 TlogProofs6 SlogModel SlogProofs SlogProofs2 SlogProofs5 SlogProofs6 SlogProofs7 QfModel QfSpec QfProofs FdcSpec FdcProofs2 FtsModel FtsSpec FtsProofs FtsProofs2 FtsProofs3 FtsProofs4 FpsModel FpsSpec FpsProofs FpsProofs2 FpsProofs3.
Local Open Scope R_scope.

Section Factors.
Variables (e M B : R).
Hypothesis (E0 : 0 <= e) (M0 : 0 <= M).
Hypothesis (BL : / 2 ^ 400 <= B) (BH : B <= 2 ^ 450).
Let K := 1 + M.
Let X := K * (e + 100 * u).
Let L := K * B.
Hypothesis small : X <= / 10 ^ 5.
Lemma B_pos : 0 < B.
Proof. assert (0 < / 2 ^ 400) by (apply Rinv_0_lt_compat, pow_lt; lra). lra. Qed.
Lemma K_big : 1 <= K <= 10 ^ 9.
Proof. destruct (units_big X K (X_units e M E0 M0 small)) as (K9 & _). split; [unfold K; lra|exact K9]. Qed.
Lemma unit_sizes : B <= L /\ L <= L * K /\ L * K <= L * (K * K) /\ M * B <= L /\ size_unit L /\ size_unit (L * K) /\ size_unit (L * (K * K)).
Proof.
  pose proof B_pos as B0. destruct K_big as [K1 K9]. assert (A1 : 1 * B <= K * B) by (apply Rmult_le_compat_r; lra). fold L in A1. assert (A2 : L * 1 <= L * K) by (apply Rmult_le_compat_l; lra). assert (A3 : L * K * 1 <= L * K * K) by (apply Rmult_le_compat_l; lra).
  replace (L * K * K) with (L * (K * K)) in A3 by ring. assert (A4 : M * B <= K * B) by (apply Rmult_le_compat_r; [lra|unfold K; lra]). fold L in A4.
  assert (KK : K * K <= 10 ^ 9 * 10 ^ 9) by (apply Rmult_le_compat; lra). assert (KKK : K * (K * K) <= 10 ^ 9 * (10 ^ 9 * 10 ^ 9)) by (apply Rmult_le_compat; try lra; apply Rmult_le_pos; lra).
  assert (A5 : L * (K * K) <= 2 ^ 700). { replace (L * (K * K)) with (K * (K * K) * B) by (unfold L; ring). replace 700%nat with (250 + 450)%nat by lia. rewrite pow_add. apply Rmult_le_compat; [apply Rmult_le_pos; [|apply Rmult_le_pos]; lra|lra| |lra]. apply Rle_trans with (2 ^ 100); [lra|apply Rle_pow; [lra|lia]]. }
  unfold size_unit. repeat split; lra.
Qed.
Lemma unit_errors : (e + 100 * u) * B <= X * L /\ (e + 100 * u) * B <= X * (L * K) /\ (e + 100 * u) * B <= X * (L * (K * K)).
Proof.
  pose proof B_pos as B0. pose proof u_pos. destruct K_big as [K1 K9]. destruct unit_sizes as (A1 & A2 & A3 & _). destruct (X_parts e M E0 M0) as (XE & eM & uM & _). fold K in XE. fold X in XE.
  assert ((e + 100 * u) * B <= X * L) by (apply Rmult_le_compat; lra). assert (X * L <= X * (L * K)) by (apply Rmult_le_compat_l; lra). assert (X * (L * K) <= X * (L * (K * K))) by (apply Rmult_le_compat_l; lra). lra.
Qed.
Lemma fast_errors : (e + 100 * u) * (M * B) <= X * L /\ (e + 100 * u) * M * (M * B) <= X * L /\ X * L <= X * (L * K) /\ X * (L * K) <= X * (L * (K * K)).
Proof.
  pose proof B_pos as B0. pose proof u_pos. destruct K_big as [K1 K9]. destruct unit_sizes as (A1 & A2 & A3 & A4 & _). destruct (X_parts e M E0 M0) as (XE & eM & uM & _). fold K in XE. fold X in XE. assert (0 <= M * B) by (apply Rmult_le_pos; lra).
  split; [apply Rmult_le_compat; lra|]. split; [apply Rmult_le_compat; lra|]. split; apply Rmult_le_compat_l; lra.
Qed.
Lemma h_B : h <= u * B / 10 ^ 8.
Proof. pose proof h_tiny. pose proof u_pos. assert (/ 2 ^ 400 * (u / 10 ^ 8) <= B * (u / 10 ^ 8)) by (apply Rmult_le_compat_r; lra). lra. Qed.
(** ** The relative pose and its logarithm *)
Lemma relative_near fo fd ro to rd td inv rel w v w0 v0 : control_near e B fo (ro, to) -> control_near e B fd (rd, td) -> fpose_inverse fo inv -> fpose_mul fd inv rel -> fse3_log rel w v ->
  rotation_by w0 (mmul rd (mtrans ro)) -> norm w0 <= 3 -> vadd (mvec (mmul rd (mtrans ro)) to) (screw w0 v0 1) = td ->
  vfinite w /\ vfinite v /\ norm (vsub (vval w) w0) <= 307 / 10 * e + 351 * u /\ norm (vsub (vval v) v0) <= 1612 / 10 * (e * B) + 4570 * (u * B) /\ norm v0 <= 374 / 100 * B.
Proof.
  intros [CO NO] [CD ND] IN ML LG RW NW SC. cbn [snd] in *. pose proof B_pos as B0. pose proof u_pos as Up. pose proof h_pos as Hp. pose proof h_B as HB. destruct (X_parts e M E0 M0) as (XE & eM & uM & _). fold K in XE. fold X in XE. assert (e5 : e <= / 10 ^ 5) by lra. assert (Us : 10000 * u <= / 10 ^ 6) by (rewrite u_num; lra).
  assert (Bbig : 4 * B <= 2 ^ 500). { replace 500%nat with (50 + 450)%nat by lia. rewrite pow_add. apply Rmult_le_compat; try lra. }
  assert (B9 : 2 ^ 500 <= 2 ^ 900) by (apply Rle_pow; [lra|lia]).
  assert (eB : 0 <= e * B <= / 10 ^ 5 * B) by (split; [apply Rmult_le_pos; lra|apply Rmult_le_compat_r; lra]). assert (uB : 0 <= u * B <= / 10 ^ 10 * B) by (split; [apply Rmult_le_pos; lra|apply Rmult_le_compat_r; lra]).
  pose proof (inverse_within e (e * B) fo inv ro to (101 / 100 * B) CO ltac:(lra) ltac:(lra) ltac:(lra) IN) as CI.
  assert (Ro : is_rotation ro) by (destruct CO as ((_ & R & _) & _); exact R). assert (Rd : is_rotation rd) by (destruct CD as ((_ & R & _) & _); exact R).
  assert (NI : norm (mvec (mtrans ro) (vneg to)) <= B) by (rewrite rot_norm by (apply rot_mtrans, Ro); rewrite norm_neg; exact NO).
  assert (CI' : pose_within e (202 / 100 * (e * B) + 61 / 10 * (u * B)) inv (mtrans ro, mvec (mtrans ro) (vneg to))) by (destruct CI as (S1 & F1 & D1); split; [exact S1|split; [exact F1|lra]]).
  destruct (product_within e e (e * B) (202 / 100 * (e * B) + 61 / 10 * (u * B)) fd inv rel rd td (mtrans ro) _ (101 / 100 * B) (101 / 100 * B) CD CI' ltac:(lra) ltac:(lra) ltac:(lra) ltac:(lra) ltac:(lra) ltac:(lra) ML) as (S2 & F2 & D2).
  cbn [fst snd] in *. set (t0 := vadd (mvec rd (mvec (mtrans ro) (vneg to))) td) in *.
  assert (T0 : t0 = screw w0 v0 1). { unfold t0. rewrite <- SC. rewrite <- mvec_mmul. generalize (mmul rd (mtrans ro)), (screw w0 v0 1). intros m s. vring. }
  assert (NT : norm t0 <= 2 * B). { unfold t0. eapply Rle_trans; [apply norm_triangle|]. rewrite rot_norm by exact Rd. lra. }
  assert (ee : e * e <= / 10 ^ 5 * e) by (apply Rmult_le_compat_r; lra).
  assert (eeB : 0 <= e * (e * B) <= / 10 ^ 5 * (e * B)) by (split; [apply Rmult_le_pos; lra|apply Rmult_le_compat_r; lra]). assert (ueB : 0 <= u * (e * B) <= / 10 ^ 10 * (e * B)) by (split; [apply Rmult_le_pos; lra|apply Rmult_le_compat_r; lra]).
  assert (D2' : norm (vsub (vval (ftrans rel)) t0) <= 405 / 100 * (e * B) + 154 / 10 * (u * B)) by lra.
  pose proof (norm_near (vval (ftrans rel)) t0) as NR. assert (NR' : norm (vval (ftrans rel)) <= 201 / 100 * B) by lra.
  rewrite T0 in D2'. destruct (se3_log_near rel _ _ w v S2 ltac:(lra) F2 ltac:(lra) LG) as (Fw & Fv & _).
  destruct (se3_log_recovers rel _ _ w v w0 v0 _ S2 ltac:(lra) F2 ltac:(lra) LG RW NW D2') as [DW DV].
  split; [exact Fw|]. split; [exact Fv|]. split; [lra|].
  assert (Q0 : 0 <= 38 * (e + e + e * e + 11 * u) + 1835 * u) by (assert (0 <= e * e) by (apply Rmult_le_pos; lra); lra).
  assert (Q : (38 * (e + e + e * e + 11 * u) + 1835 * u) * norm (vval (ftrans rel)) <= (761 / 10 * e + 2253 * u) * (201 / 100 * B)) by (apply Rmult_le_compat; [exact Q0|apply norm_nonneg|lra|exact NR']).
  split; [lra|]. pose proof PI_low. rewrite <- (unscrew_screw w0 v0) by lra. rewrite <- T0. eapply Rle_trans; [apply unscrew_bound; unfold reach_max; lra|]. lra.
Qed.
(** ** The motion *)
Lemma motion_slides t s w v w0 v0 g x : near_time t s -> vfinite w -> vfinite v -> norm w0 <= 3 -> norm (vsub (vval w) w0) <= 307 / 10 * e + 351 * u ->
  norm (vsub (vval v) v0) <= 1612 / 10 * (e * B) + 4570 * (u * B) -> norm v0 <= 374 / 100 * B ->
  fse3_exp (fscale (f_a (computed WMotion t)) w) (fscale (f_a (computed WMotion t)) v) g -> screw_stage WMotion w0 v0 s x ->
  slides X K L 243 (187 / 50) 303 (351 / 50) 968 (45 / 2) (FPJ g (ftscale (f_da (computed WMotion t)) (FT w v)) (ftscale (f_d2a (computed WMotion t)) (FT w v))) x.
Proof.
  intros Ft Fw Fv Nw Dw Dv Nv G T. pose proof B_pos as B0. pose proof u_pos as Up. pose proof h_pos as Hp. pose proof h_B as HB. pose proof h_small_u as Hs. destruct (X_parts e M E0 M0) as (XE & eM & uM & _). fold K in XE. fold X in XE. assert (e5 : e <= / 10 ^ 5) by lra. assert (Us : 10000 * u <= / 10 ^ 6) by (rewrite u_num; lra).
  destruct unit_sizes as (A1 & A2 & A3 & _). destruct unit_errors as (C1 & C2 & C3).
  assert (eB : 0 <= e * B <= / 10 ^ 5 * B) by (split; [apply Rmult_le_pos; lra|apply Rmult_le_compat_r; lra]). assert (uB : 0 <= u * B <= / 10 ^ 10 * B) by (split; [apply Rmult_le_pos; lra|apply Rmult_le_compat_r; lra]).
  pose proof (norm_near (vval w) w0) as NW. pose proof (norm_near (vval v) v0) as NV. destruct (motion_bounds s (proj1 (proj2 (proj2 Ft)))) as (H0 & H1 & H2).
  assert (Bbig : 4 * B <= 2 ^ 480). { replace 480%nat with (30 + 450)%nat by lia. rewrite pow_add. apply Rmult_le_compat; try lra. }
  destruct (factor_place WMotion t s w v w0 v0 _ _ (301 / 100) (376 / 100 * B) 1 (15 / 8) 6 g x Ft Fw Fv Dw Dv ltac:(lra) ltac:(apply Rle_trans with (2 ^ 2); [lra|apply Rle_pow; [lra|lia]]) ltac:(lra) ltac:(lra) ltac:(rewrite Rabs_right; lra) ltac:(rewrite Rabs_right; lra) H2 ltac:(lra) ltac:(lra) ltac:(lra) G T)
    as (((F0 & D0) & N0) & ((F1 & D1) & N1) & ((F2 & D2) & N2)).
  assert (hu : u * h <= / 10 ^ 6 * h) by (apply Rmult_le_compat_r; lra).
  assert (uuB : 0 <= u * (u * B) <= / 10 ^ 10 * (u * B)) by (split; [apply Rmult_le_pos; lra|apply Rmult_le_compat_r; lra]).
  split; [|split]; (split; [split; [assumption|]|]); cbn [pf pd pd2 ftscale ftrans_part]; [|lra| |lra| |lra].
  - eapply Rle_trans; [exact D0|]. assert (Y : u * ((1 + 524 * u) * (301 / 100)) + 2 * h + 524 * u * (301 / 100) + 1 * (307 / 10 * e + 351 * u) <= 307 / 10 * e + 1933 * u). { assert (u * u <= / 10 ^ 6 * u) by (apply Rmult_le_compat_r; lra). lra. }
    assert (Y0 : 0 <= u * ((1 + 524 * u) * (301 / 100)) + 2 * h + 524 * u * (301 / 100) + 1 * (307 / 10 * e + 351 * u)) by (assert (0 <= u * u) by (apply Rmult_le_pos; lra); lra).
    assert (Z : 7072 / 10000 * (u * ((1 + 524 * u) * (301 / 100)) + 2 * h + 524 * u * (301 / 100) + 1 * (307 / 10 * e + 351 * u)) * (1 * norm v0) <= 7072 / 10000 * (307 / 10 * e + 1933 * u) * (374 / 100 * B)) by (apply Rmult_le_compat; [lra|pose proof (norm_nonneg v0); lra|lra|lra]).
    lra.
  - eapply Rle_trans; [exact D1|]. lra.
  - eapply Rle_trans; [exact D2|]. lra.
Qed.
(** ** The velocities and accelerations of the ends *)
Lemma derivative_slides k t s w v w0 v0 g x : k <> WMotion -> near_time t s -> vfinite w -> vfinite v -> norm w0 <= M -> norm (vsub (vval w) w0) <= e * M ->
  norm (vsub (vval v) v0) <= e * (M * B) -> norm v0 <= M * B ->
  fse3_exp (fscale (f_a (computed k t)) w) (fscale (f_a (computed k t)) v) g -> screw_stage k w0 v0 s x ->
  slides X K L (283 / 10) (1 / 4) (107 / 10) 1 (243 / 10) 4 (FPJ g (ftscale (f_da (computed k t)) (FT w v)) (ftscale (f_d2a (computed k t)) (FT w v))) x.
Proof.
  intros NK Ft Fw Fv Nw Dw Dv Nv G T. pose proof B_pos as B0. pose proof u_pos as Up. pose proof h_pos as Hp. pose proof h_B as HB. pose proof h_small_u as Hs. destruct (X_parts e M E0 M0) as (XE & eM & uM & _). fold K in XE. fold X in XE. assert (e5 : e <= / 10 ^ 5) by lra. assert (Us : 10000 * u <= / 10 ^ 6) by (rewrite u_num; lra).
  destruct K_big as [K1 K9]. destruct unit_sizes as (A1 & A2 & A3 & A4 & _). destruct unit_errors as (C1 & C2 & C3). destruct fast_errors as (C4 & C5 & C6 & C7).
  assert (MB : 0 <= M * B) by (apply Rmult_le_pos; lra). assert (MMB : 0 <= M * (M * B)) by (apply Rmult_le_pos; lra).
  assert (eMB : 0 <= e * (M * B) <= / 10 ^ 5 * (M * B)) by (split; [apply Rmult_le_pos; lra|apply Rmult_le_compat_r; lra]). assert (uMB : 0 <= u * (M * B) <= / 10 ^ 10 * (M * B)) by (split; [apply Rmult_le_pos; lra|apply Rmult_le_compat_r; lra]).
  assert (eM5 : e * M <= / 10 ^ 5 * M) by (apply Rmult_le_compat_r; lra). assert (eMMB : 0 <= e * (M * (M * B))) by (apply Rmult_le_pos; lra). assert (uMMB : 0 <= u * (M * (M * B))) by (apply Rmult_le_pos; lra).
  assert (eB : 0 <= e * B) by (apply Rmult_le_pos; lra). assert (uB : 0 <= u * B <= / 10 ^ 10 * B) by (split; [apply Rmult_le_pos; lra|apply Rmult_le_compat_r; lra]).
  pose proof (norm_near (vval w) w0) as NW. pose proof (norm_near (vval v) v0) as NV. destruct (derivative_bounds k s NK (proj1 (proj2 (proj2 Ft)))) as (H0 & H1 & H2).
  assert (Bbig : 1001 / 1000 * (M * B) <= 2 ^ 480). { replace (1001 / 1000 * (M * B)) with (1001 / 1000 * M * B) by ring. replace 480%nat with (30 + 450)%nat by lia. rewrite pow_add. apply Rmult_le_compat; try lra. unfold K in K9. lra. }
  destruct (factor_place k t s w v w0 v0 _ _ (1001 / 1000 * M) (1001 / 1000 * (M * B)) (1 / 4) 1 4 g x Ft Fw Fv Dw Dv ltac:(lra) ltac:(apply Rle_trans with (2 ^ 40); [unfold K in K9; lra|apply Rle_pow; [lra|lia]]) ltac:(lra) ltac:(lra) H0 H1 H2 ltac:(lra) ltac:(lra) ltac:(lra) G T)
    as (((F0 & D0) & N0) & ((F1 & D1) & N1) & ((F2 & D2) & N2)).
  assert (hu : u * h <= / 10 ^ 6 * h) by (apply Rmult_le_compat_r; lra). assert (hM : 0 <= M * h <= M * (u * B / 10 ^ 8)) by (split; [apply Rmult_le_pos; lra|apply Rmult_le_compat_l; lra]).
  assert (uuMB : 0 <= u * (u * (M * B)) <= / 10 ^ 10 * (u * (M * B))) by (split; [apply Rmult_le_pos; lra|apply Rmult_le_compat_r; lra]).
  split; [|split]; (split; [split; [assumption|]|]); cbn [pf pd pd2 ftscale ftrans_part]; [|lra| |lra| |lra].
  - eapply Rle_trans; [exact D0|]. set (Y := u * ((1 / 4 + 524 * u) * (1001 / 1000 * M)) + 2 * h + 524 * u * (1001 / 1000 * M) + 1 / 4 * (e * M)) in *.
    assert (uuM : 0 <= u * (u * M) <= / 10 ^ 10 * (u * M)) by (split; [apply Rmult_le_pos; lra|apply Rmult_le_compat_r; lra]).
    assert (Y1 : 0 <= Y <= 1 / 4 * (e * M) + 526 * (u * M) + 2 * h) by (unfold Y; split; lra).
    assert (Z : 7072 / 10000 * Y * (1 / 4 * norm v0) <= 7072 / 10000 * (1 / 4 * (e * M) + 526 * (u * M) + 2 * h) * (1 / 4 * (M * B))) by (apply Rmult_le_compat; [lra|pose proof (norm_nonneg v0); lra|lra|lra]).
    assert (hMB : h * (M * B) <= u * (M * B)) by (apply Rmult_le_compat_r; lra).
    replace ((e + 100 * u) * (M * B)) with (e * (M * B) + 100 * (u * (M * B))) in C4 by ring. replace ((e + 100 * u) * M * (M * B)) with (e * (M * (M * B)) + 100 * (u * (M * (M * B)))) in C5 by ring.
    replace (7072 / 10000 * (1 / 4 * (e * M) + 526 * (u * M) + 2 * h) * (1 / 4 * (M * B))) with (7072 / 10000 / 4 * (1 / 4 * (e * (M * (M * B))) + 526 * (u * (M * (M * B))) + 2 * (h * (M * B)))) in Z by field. clearbody Y. 
    assert (XS : (e + 100 * u) * B + (e * (M * B) + 100 * (u * (M * B))) + (e * (M * B) + 100 * (u * (M * B))) + (e * (M * (M * B)) + 100 * (u * (M * (M * B)))) = X * L) by (unfold X, L, K; ring). lra.
  - eapply Rle_trans; [exact D1|]. lra.
  - eapply Rle_trans; [exact D2|]. lra.
Qed.
End Factors.
