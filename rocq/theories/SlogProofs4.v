(** SE3::log in double precision against the exact inverse of the screw motion. *)
From Coq Require Import Reals Psatz ZArith.
From Flocq Require Import Core BinarySingleNaN.
From Verif Require Import Cpp FloatModel FloatSpec NrmSpec Vec RotSpec ScrewSpec CoeffProofs FloatProofs NrmProofs DriftModel DriftSpec DriftProofs DriftProofs2 SpinModel SpinSpec SpinProofs SpinProofs2 TwistModel TwistProofs TwistProofs2 TlogModel TlogSpec TlogProofs2 TlogProofs4 TlogProofs5 SlogModel SlogProofs SlogProofs2 SlogProofs3.
Local Open Scope R_scope.

Lemma log_coeff_near v z a b c : vfinite v -> norm (vval v) <= reach_max -> fsquared_norm v z -> fexp_diff_coeffs z a b c -> let L := norm (vval v) in let k := flog_coeff z a b c in
  finite k /\ Rabs (val k - ck L) * (L * L) <= 1351 * u /\ (L <= 2 -> Rabs (val k - ck L) * (L * L) <= 131 * u) /\ Rabs (val k - ck L) <= / 1000.
Proof.
  intros F N Z C L k. pose proof PI_bounds as PB. assert (N9 : norm (vval v) <= 2 ^ 490) by (unfold reach_max in N; apply Rle_trans with (2 ^ 2); [lra|apply Rle_pow; [lra|lia]]).
  destruct (squared_near v z F N9 Z) as (Fz & Pz & Ez). destruct (coeffs_near v z a b c F N9 Z C) as ((Fa & Fb & Fc) & Ea & Eb & Ec & _). pose proof (norm_nonneg (vval v)) as P. fold L in N, Ez, Ea, Eb, Ec, P.
  pose proof u_pos as Up. pose proof h_small_u as Hs. pose proof h_pos as Hp. unfold k, flog_coeff. destruct (flt z FTINY_SQUARE_ANGLE) eqn:T.
  - destruct (coeffs_tiny L z a b c P Fz Pz Ez T C) as (B & _). destruct (coeff_tiny L z P B Fz Pz Ez) as (Fk & E1 & E2). split; [exact Fk|]. split; [lra|]. split; [lra|exact E2].
  - destruct threshold as [Ft Vt]. assert (T' : val FTINY_SQUARE_ANGLE <= val z) by (apply Rnot_lt_le; intro X; apply (flt_val _ _ Fz Ft) in X; congruence).
    assert (LL : 3998 / 10 ^ 9 <= L * L) by (apply Rabs_le_inv in Ez; rewrite u_num in *; nra). assert (L0 : 19 / 10000 <= L) by nra.
    assert (E0 : L <> 0) by lra. unfold ca, cb, cc in *. unfold ck. destruct (Req_EM_T L 0) as [O|_]; [contradiction|].
    unfold off_by in Eb. rewrite Rmax_left in Eb by lra. assert (Ez' : Rabs (val z - L * L) <= 302 / 100 * u * (L * L)) by (eapply Rle_trans; [exact Ez|]; rewrite u_num in *; assert (h <= / 10 ^ 24) by lra; lra).
    destruct (of_small 9) as [F9 V9]; [cbn; lia|]. assert (U : / 1000 * (3998 / 10 ^ 9) >= 1351 * u) by (rewrite u_num; lra).
    assert (W : forall e, Rabs e * (L * L) <= 1351 * u -> Rabs e <= / 1000) by (intros e E; apply Rmult_le_reg_r with (L * L); [lra|]; lra).
    destruct (flt (of_int 9) z) eqn:G.
    + apply (flt_val _ _ F9 Fz) in G. rewrite V9 in G. assert (L3 : 29999 / 10000 <= L). { assert (8999999 / 1000000 <= L * L) by (apply Rabs_le_inv in Ez'; unfold reach_max in N; assert (L * L <= 10) by nra; rewrite u_num in *; lra). apply Rnot_lt_le. intro X. assert (L * L < 29999 / 10000 * (29999 / 10000)) by (apply Rmult_le_0_lt_compat; lra). lra. }
      destruct (coeff_large L z a b (conj L3 N) Fz Fa Fb Ez' Ea Eb) as [Fk Ek]. split; [exact Fk|]. split; [lra|]. split; [lra|]. apply W. lra.
    + assert (val z <= 9) by (apply Rnot_lt_le; intro X; rewrite <- V9 in X; apply (flt_val _ _ F9 Fz) in X; congruence).
      assert (L3 : L <= 30001 / 10000). { assert (L * L <= 9000001 / 1000000) by (apply Rabs_le_inv in Ez'; unfold reach_max in N; assert (L * L <= 10) by nra; rewrite u_num in *; lra). apply Rnot_lt_le. intro X. assert (30001 / 10000 * (30001 / 10000) < L * L) by (apply Rmult_le_0_lt_compat; lra). lra. }
      destruct (coeff_middle L a b c (43 / 1000) (conj L0 L3) (conj (Rle_refl _) (wa_3 L ltac:(lra))) Fa Fb Fc Ea Eb Ec) as [Fk Ek]. split; [exact Fk|].
      assert (E1 : Rabs (val (fdivide (fsub (fmul b fhalf) c) a) - wk L) * (L * L) <= 1351 * u) by (eapply Rle_trans; [exact Ek|]; apply Rmult_le_compat_r; lra). split; [exact E1|]. split; [|apply W; exact E1].
      intro L2. assert (A45 : 43 / 1000 <= 45 / 100 <= wa L) by (split; [lra|apply wa_2; lra]). destruct (coeff_middle L a b c (45 / 100) (conj L0 L3) A45 Fa Fb Fc Ea Eb Ec) as [_ Ek2]. eapply Rle_trans; [exact Ek2|]. apply Rmult_le_compat_r; lra.
Qed.

(** A cross product. *)
Lemma cross_sums v w L T : 0 <= L -> 0 <= T -> norm v <= L -> norm w <= T ->
  Rabs (vy v) * Rabs (vz w) + Rabs (vz v) * Rabs (vy w) <= L * T /\ Rabs (vz v) * Rabs (vx w) + Rabs (vx v) * Rabs (vz w) <= L * T /\ Rabs (vx v) * Rabs (vy w) + Rabs (vy v) * Rabs (vx w) <= L * T.
Proof.
  intros L0 T0 NL NT. assert (LT : norm v * norm w <= L * T) by (apply Rmult_le_compat; try apply norm_nonneg; assumption).
  assert (Q : forall p1 p2 p3 q1 q2 q3 : R, norm (V3 p1 p2 p3) = norm v -> norm (V3 q2 q1 q3) = norm w -> Rabs p1 * Rabs q2 + Rabs p2 * Rabs q1 <= L * T).
  { intros p1 p2 p3 q1 q2 q3 HP HQ. pose proof (abs_dot (V3 p1 p2 p3) (V3 q2 q1 q3)) as K. cbn [vx vy vz] in K. rewrite HP, HQ in K. pose proof (Rmult_le_pos _ _ (Rabs_pos p3) (Rabs_pos q3)). lra. }
  assert (N : forall x y z v', x * x + y * y + z * z = norm2 v' -> norm (V3 x y z) = norm v') by (intros x y z v' E; unfold norm; f_equal; rewrite <- E; reflexivity).
  split; [|split].
  - apply (Q _ _ (vx v) _ _ (vx w)); apply N; unfold norm2, dot; ring.
  - apply (Q _ _ (vy v) _ _ (vy w)); apply N; unfold norm2, dot; ring.
  - apply (Q _ _ (vz v) _ _ (vz w)); apply N; unfold norm2, dot; ring.
Qed.
Lemma cross_near v w M : vfinite v -> vfinite w -> norm (vval v) * norm (vval w) <= M -> M <= 2 ^ 990 ->
  let c := vsub (vval (fcross v w)) (cross (vval v) (vval w)) in let e := 201 / 100 * u * M + 3 * h in
  vfinite (fcross v w) /\ Rabs (vx c) <= e /\ Rabs (vy c) <= e /\ Rabs (vz c) <= e /\ norm c <= 17321 / 10000 * e.
Proof.
  intros (Vx & Vy & Vz) (Wx & Wy & Wz) H HM c e. destruct (cross_sums (vval v) (vval w) _ _ (norm_nonneg _) (norm_nonneg _) (Rle_refl _) (Rle_refl _)) as (Cx & Cy & Cz).
  destruct (cross_entry _ _ _ _ M Vy Wz Vz Wy ltac:(cbn [vval vx vy vz] in *; lra) HM) as [Fx Ex]. destruct (cross_entry _ _ _ _ M Vz Wx Vx Wz ltac:(cbn [vval vx vy vz] in *; lra) HM) as [Fy Ey]. destruct (cross_entry _ _ _ _ M Vx Wy Vy Wx ltac:(cbn [vval vx vy vz] in *; lra) HM) as [Fz Ez].
  split; [split; [exact Fx|split; [exact Fy|exact Fz]]|]. unfold c, vsub, cross, vval, fcross. cbn [vx vy vz fx fy fz]. split; [exact Ex|]. split; [exact Ey|]. split; [exact Ez|]. apply norm_three; assumption.
Qed.
Lemma untwist_entry k ti ni mi L T n m : finite k -> finite ti -> finite ni -> finite mi -> 0 <= L <= 4 -> 0 <= T <= 2 ^ 501 ->
  Rabs (val k) <= 1 / 5 -> Rabs (val k) * (L * L) <= 102 / 100 -> Rabs (val ti) <= T -> Rabs n <= L * T -> Rabs m <= L * L * T ->
  Rabs (val ni - n) <= 201 / 100 * u * (L * T) + 3 * h -> Rabs (val mi - m) <= 553 / 100 * u * (L * L * T) + 30 * h ->
  let x := fadd (fsub ti (fmul fhalf ni)) (fmul k mi) in
  finite x /\ Rabs (val x - (val ti - 1 / 2 * n + val k * m)) <= (99 / 10 + 26 / 10 * L) * u * T + 13 * h.
Proof.
  intros Fk Ft Fn Fm HL HT K1 K2 t1 n1 m1 En Em x. pose proof u_pos as Up. pose proof h_pos as Hp. pose proof h_small_u as Hs. destruct fhalf_val as [Fh Vh].
  assert (B : 2 ^ 501 * 1000 <= 2 ^ 1000) by (apply Rle_trans with (2 ^ 501 * 2 ^ 10); [apply Rmult_le_compat_l; [apply pow_le; lra|lra]|rewrite pow_sum; apply Rle_pow; [lra|lia]]).
  assert (B1 : 1 <= 2 ^ 501) by (apply pow_R1_Rle; lra).
  assert (LT0 : 0 <= L * T) by (apply Rmult_le_pos; lra). assert (LT4 : L * T <= 4 * T) by (apply Rmult_le_compat_r; lra).
  assert (n2 : Rabs (val ni) <= L * T + (201 / 100 * u * (L * T) + 3 * h)) by exact (off_bound _ _ _ _ En n1).
  assert (uLT : 0 <= u * (L * T)) by (apply Rmult_le_pos; lra). assert (uLT4 : u * (L * T) <= / 1000000 * (L * T)) by (apply Rmult_le_compat_r; [lra|rewrite u_num; lra]).
  destruct (mul_error fhalf ni Fh Fn) as [F1 X1]; [rewrite Vh, Rabs_mult, (Rabs_right (/ 2)) by lra; rewrite u_num in *; lra|]. rewrite Vh in X1. set (p := fmul fhalf ni) in *.
  assert (p1 : Rabs (val p - 1 / 2 * n) <= 151 / 100 * u * (L * T) + 3 * h).
  { replace (val p - 1 / 2 * n) with ((val p - / 2 * val ni) + / 2 * (val ni - n)) by field. eapply Rle_trans; [apply Rabs_triang|]. rewrite (Rabs_mult (/ 2)) by lra. rewrite (Rabs_mult (/ 2)) in X1. rewrite (Rabs_right (/ 2)) in * by lra.
    assert (u * (/ 2 * Rabs (val ni)) <= u * (/ 2 * (L * T + (201 / 100 * u * (L * T) + 3 * h)))) by (apply Rmult_le_compat_l; lra).
    replace (u * (/ 2 * (L * T + (201 / 100 * u * (L * T) + 3 * h)))) with (/ 2 * (u * (L * T)) + 201 / 200 * u * (u * (L * T)) + 3 / 2 * u * h) in * by field.
    assert (u * (u * (L * T)) <= / 1000000 * (u * (L * T))) by (apply Rmult_le_compat_r; [lra|rewrite u_num; lra]). assert (u * h <= / 1000000 * h) by (apply Rmult_le_compat_r; [lra|rewrite u_num; lra]). lra. }
  assert (p2 : Rabs (val p) <= 51 / 100 * (L * T) + 4 * h) by (pose proof (off_bound _ _ _ (1 / 2 * (L * T)) p1 ltac:(rewrite Rabs_mult, (Rabs_right (1 / 2)) by lra; lra)); lra).
  assert (s0 : Rabs (val ti - val p) <= T + 51 / 100 * (L * T) + 4 * h) by (replace (val ti - val p) with (val ti + - val p) by ring; eapply Rle_trans; [apply Rabs_triang|]; rewrite Rabs_Ropp; lra).
  assert (h1 : h <= / 1000000) by (rewrite u_num in *; lra).
  destruct (sub_error ti p Ft F1) as [F2 X2]; [lra|]. set (s := fsub ti p) in *.
  assert (uT : 0 <= u * T <= / 1000000 * T) by (split; [apply Rmult_le_pos; lra|apply Rmult_le_compat_r; [lra|rewrite u_num; lra]]).
  assert (s1 : Rabs (val s - (val ti - 1 / 2 * n)) <= 203 / 100 * u * (L * T) + u * T + 4 * h).
  { replace (val s - (val ti - 1 / 2 * n)) with ((val s - (val ti - val p)) + - (val p - 1 / 2 * n)) by ring. eapply Rle_trans; [apply Rabs_triang|]. rewrite Rabs_Ropp.
    assert (u * Rabs (val ti - val p) <= u * (T + 51 / 100 * (L * T) + 4 * h)) by (apply Rmult_le_compat_l; lra). assert (u * h <= / 1000000 * h) by (apply Rmult_le_compat_r; [lra|rewrite u_num; lra]). lra. }
  (* k m *)
  assert (KL : Rabs (val k) * (L * L * T) <= 102 / 100 * T) by (rewrite <- Rmult_assoc; apply Rmult_le_compat_r; lra). pose proof (Rabs_pos (val k)) as K0.
  assert (km : Rabs (val k * val mi - val k * m) <= 565 / 100 * u * T + 6 * h).
  { rewrite <- Rmult_minus_distr_l, Rabs_mult. apply Rle_trans with (Rabs (val k) * (553 / 100 * u * (L * L * T) + 30 * h)); [apply Rmult_le_compat_l; lra|].
    replace (Rabs (val k) * (553 / 100 * u * (L * L * T) + 30 * h)) with (553 / 100 * u * (Rabs (val k) * (L * L * T)) + 30 * (Rabs (val k) * h)) by ring.
    assert (553 / 100 * u * (Rabs (val k) * (L * L * T)) <= 553 / 100 * u * (102 / 100 * T)) by (apply Rmult_le_compat_l; lra). assert (Rabs (val k) * h <= 1 / 5 * h) by (apply Rmult_le_compat_r; lra). lra. }
  assert (km1 : Rabs (val k * m) <= 102 / 100 * T) by (rewrite Rabs_mult; eapply Rle_trans; [apply Rmult_le_compat_l; [exact K0|exact m1]|exact KL]).
  assert (km2 : Rabs (val k * val mi) <= 103 / 100 * T + 6 * h) by (pose proof (off_bound _ _ _ _ km km1); lra).
  destruct (mul_error k mi Fk Fm) as [F3 X3]; [lra|]. set (q := fmul k mi) in *.
  assert (q1 : Rabs (val q - val k * m) <= 67 / 10 * u * T + 8 * h).
  { eapply Rle_trans; [apply (off_trans _ (val k * val mi) _ _ _ X3 km)|]. assert (u * Rabs (val k * val mi) <= u * (103 / 100 * T + 6 * h)) by (apply Rmult_le_compat_l; lra). assert (u * h <= / 1000000 * h) by (apply Rmult_le_compat_r; [lra|rewrite u_num; lra]). lra. }
  assert (q2 : Rabs (val q) <= 103 / 100 * T + 8 * h) by (pose proof (off_bound _ _ _ _ q1 km1); lra).
  assert (s2 : Rabs (val s) <= 101 / 100 * T + 52 / 100 * (L * T) + 5 * h) by (pose proof (off_bound _ _ _ _ X2 s0); assert (u * Rabs (val ti - val p) <= / 1000000 * Rabs (val ti - val p)) by (apply Rmult_le_compat_r; [apply Rabs_pos|rewrite u_num; lra]); lra).
  assert (y0 : Rabs (val s + val q) <= 204 / 100 * T + 52 / 100 * (L * T) + 13 * h) by (eapply Rle_trans; [apply Rabs_triang|]; lra).
  destruct (add_error s q F2 F3) as [F4 X4]; [lra|]. fold x in F4, X4. split; [exact F4|].
  replace (val x - (val ti - 1 / 2 * n + val k * m)) with ((val x - (val s + val q)) + ((val s - (val ti - 1 / 2 * n)) + (val q - val k * m))) by ring.
  eapply Rle_trans; [apply Rabs_triang|]. eapply Rle_trans; [apply Rplus_le_compat_l, Rabs_triang|].
  assert (u * Rabs (val s + val q) <= u * (204 / 100 * T + 52 / 100 * (L * T) + 13 * h)) by (apply Rmult_le_compat_l; lra). assert (u * h <= / 1000000 * h) by (apply Rmult_le_compat_r; [lra|rewrite u_num; lra]). lra.
Qed.
Lemma untwist_rounding k w t : finite k -> vfinite w -> vfinite t -> let L := norm (vval w) in let T := norm (vval t) in
  L <= 4 -> T <= 2 ^ 501 -> Rabs (val k) <= 1 / 5 -> Rabs (val k) * (L * L) <= 102 / 100 ->
  vfinite (funtwist k w t) /\ norm (vsub (vval (funtwist k w t)) (untwist (val k) (vval w) (vval t))) <= (172 / 10 + 452 / 100 * L) * u * T + 23 * h.
Proof.
  intros Fk Fw Ft L T HL HT K1 K2. pose proof u_pos as Up. pose proof h_pos as Hp. assert (L0 : 0 <= L) by apply norm_nonneg. assert (T0 : 0 <= T) by apply norm_nonneg.
  assert (B : 2 ^ 501 * 100 <= 2 ^ 990) by (apply Rle_trans with (2 ^ 501 * 2 ^ 10); [apply Rmult_le_compat_l; [apply pow_le; lra|lra]|rewrite pow_sum; apply Rle_pow; [lra|lia]]). assert (B1 : 1 <= 2 ^ 501) by (apply pow_R1_Rle; lra).
  assert (LT0 : 0 <= L * T) by (apply Rmult_le_pos; lra). assert (LT4 : L * T <= 4 * T) by (apply Rmult_le_compat_r; lra).
  destruct (cross_near w t (L * T) Fw Ft (Rle_refl _) ltac:(lra)) as (Fn & Nx & Ny & Nz & Nn). set (n := fcross w t) in *. set (N := cross (vval w) (vval t)) in *.
  assert (N0 : norm N <= L * T) by apply norm_cross_le.
  set (e := 201 / 100 * u * (L * T) + 3 * h) in *.
  assert (n0 : norm (vval n) <= L * T + 17321 / 10000 * e) by (replace (vval n) with (vadd N (vsub (vval n) N)) by (generalize N (vval n); intros [a0 b0 c0] [a1 b1 c1]; unfold vadd, vsub; cbn [vx vy vz]; f_equal; ring); eapply Rle_trans; [apply norm_triangle|]; lra).
  assert (uLT : u * (L * T) <= / 1000000 * (L * T)) by (apply Rmult_le_compat_r; [lra|rewrite u_num; lra]). assert (uLT0 : 0 <= u * (L * T)) by (apply Rmult_le_pos; lra). assert (h1 : h <= / 1000000) by (pose proof h_small_u; rewrite u_num in *; lra).
  assert (LLT0 : 0 <= L * (L * T)) by (apply Rmult_le_pos; lra).
  assert (M : L * norm (vval n) <= 10001 / 10000 * (L * (L * T)) + 21 * h).
  { apply Rle_trans with (L * (L * T + 17321 / 10000 * e)); [apply Rmult_le_compat_l; lra|]. unfold e. assert (L * (u * (L * T)) <= L * (/ 1000000 * (L * T))) by (apply Rmult_le_compat_l; lra). assert (L * h <= 4 * h) by (apply Rmult_le_compat_r; lra). lra. }
  assert (LLT : L * (L * T) <= 4 * (4 * T)) by (apply Rmult_le_compat; lra).
  destruct (cross_near w n _ Fw Fn M ltac:(lra)) as (Fm & Mx & My & Mz & _). set (m := fcross w n) in *. set (MM := cross (vval w) N).
  assert (M0 : norm MM <= L * L * T) by (eapply Rle_trans; [apply norm_cross_le|]; fold L; rewrite Rmult_assoc; apply Rmult_le_compat_l; lra).
  assert (D : norm (cross (vval w) (vsub (vval n) N)) <= 349 / 100 * u * (L * (L * T)) + 21 * h).
  { eapply Rle_trans; [apply norm_cross_le|]. fold L. apply Rle_trans with (L * (17321 / 10000 * e)); [apply Rmult_le_compat_l; lra|]. unfold e. assert (L * h <= 4 * h) by (apply Rmult_le_compat_r; lra). assert (0 <= u * (L * (L * T))) by (apply Rmult_le_pos; lra). lra. }
  assert (U2 : 0 <= u * (L * (L * T))) by (apply Rmult_le_pos; lra). assert (uh : u * h <= / 1000000 * h) by (apply Rmult_le_compat_r; [lra|rewrite u_num; lra]).
  destruct (entry_norm (cross (vval w) (vsub (vval n) N))) as (Dx & Dy & Dz).
  assert (Q : vsub (vval m) MM = vadd (vsub (vval m) (cross (vval w) (vval n))) (cross (vval w) (vsub (vval n) N))) by (unfold MM; generalize (vval m) (vval w) (vval n) N; intros [a2 b2 c2] [a3 b3 c3] [a4 b4 c4] [a5 b5 c5]; vring).
  assert (Ex : Rabs (vx (vsub (vval m) MM)) <= 553 / 100 * u * (L * L * T) + 30 * h) by (rewrite Q; unfold vadd at 1; cbn [vx]; eapply Rle_trans; [apply Rabs_triang|]; lra).
  assert (Ey : Rabs (vy (vsub (vval m) MM)) <= 553 / 100 * u * (L * L * T) + 30 * h) by (rewrite Q; unfold vadd at 1; cbn [vy]; eapply Rle_trans; [apply Rabs_triang|]; lra).
  assert (Ez : Rabs (vz (vsub (vval m) MM)) <= 553 / 100 * u * (L * L * T) + 30 * h) by (rewrite Q; unfold vadd at 1; cbn [vz]; eapply Rle_trans; [apply Rabs_triang|]; lra).
  destruct (entry_norm (vval t)) as (tx & ty & tz). destruct (entry_norm N) as (nx & ny & nz). destruct (entry_norm MM) as (mx & my & mz). fold T in tx, ty, tz.
  assert (Ft' := Ft). assert (Fn' := Fn). assert (Fm' := Fm). destruct Ft' as (Tx & Ty & Tz), Fn' as (Gx & Gy & Gz), Fm' as (Hx & Hy & Hz).
  destruct (untwist_entry k (fx t) (fx n) (fx m) L T (vx N) (vx MM) Fk Tx Gx Hx ltac:(lra) ltac:(lra) K1 K2 tx ltac:(lra) ltac:(lra) Nx Ex) as [Ix Jx].
  destruct (untwist_entry k (fy t) (fy n) (fy m) L T (vy N) (vy MM) Fk Ty Gy Hy ltac:(lra) ltac:(lra) K1 K2 ty ltac:(lra) ltac:(lra) Ny Ey) as [Iy Jy].
  destruct (untwist_entry k (fz t) (fz n) (fz m) L T (vz N) (vz MM) Fk Tz Gz Hz ltac:(lra) ltac:(lra) K1 K2 tz ltac:(lra) ltac:(lra) Nz Ez) as [Iz Jz].
  unfold funtwist. fold n m. split; [split; [exact Ix|split; [exact Iy|exact Iz]]|].
  unfold untwist. fold N MM. unfold vsub, vadd, vscale, vval. cbn [vx vy vz fx fy fz]. eapply Rle_trans; [apply norm_three; [exact Jx|exact Jy|exact Jz]|].
  assert (0 <= u * T) by (apply Rmult_le_pos; lra). replace ((99 / 10 + 26 / 10 * L) * u * T) with (99 / 10 * (u * T) + 26 / 10 * (u * (L * T))) by field. replace ((172 / 10 + 452 / 100 * L) * u * T) with (172 / 10 * (u * T) + 452 / 100 * (u * (L * T))) by field. lra.
Qed.
