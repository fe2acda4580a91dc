(** More about SO3::log and SO3::interp in double precision: special cases, and that the
    relations of the model always hold of something. *)
From Coq Require Import Psatz.
From Flocq Require Import Core BinarySingleNaN.
From Verif Require Import Cpp FloatModel FloatSpec FloatProofs NrmSpec NrmProofs Vec RotSpec RotProofs CoeffProofs DriftModel DriftSpec DriftProofs DriftProofs2 SpinModel SpinSpec SpinProofs SpinProofs2 SpinProofs3 TlogModel TlogSpec TlogProofs TlogProofs2 TlogProofs3 TlogProofs4 TlogProofs5.
Local Open Scope R_scope.

(** ** There is always a result *)
Lemma stored4 g : fmt g -> Rabs g <= 4 -> exists y : f64, finite y /\ val y = g.
Proof.
  intros F B. unfold fmt, generic_format in F. set (m := Ztrunc _) in F. set (e := cexp _ _ _) in F.
  exists (NrmSpec.double m e). pose proof (@binary_normalize_correct 53 1024 prec_pos prec_emax mode_NE m e false) as H.
  rewrite <- F in H. cbn [round_mode] in H. fold (rd g) in H.
  change (round radix2 (SpecFloat.fexp 53 1024) ZnearestE g) with (rd g) in H.
  assert (G : rd g = g) by (apply rd_id; unfold fmt, generic_format; exact F). rewrite G in H.
  rewrite Rlt_bool_true in H; [exact (conj (proj1 (proj2 H)) (proj1 H))|].
  eapply Rle_lt_trans; [exact B|]. change 4 with (bpow radix2 2). apply bpow_lt. reflexivity.
Qed.
Lemma atan2_bound y x : Rabs (GeomModel.atan2 y x) <= 4.
Proof.
  pose proof PI_bounds. pose proof (atan_bound (y / x)). apply Rabs_le. unfold GeomModel.atan2.
  destruct (Rlt_dec 0 x); [lra|]. destruct (Rlt_dec x 0) as [Nx|Nx].
  - destruct (Rle_dec 0 y) as [Py|Py].
    + assert (y / x <= 0). { unfold Rdiv. pose proof (Rinv_lt_0_compat x Nx). nra. } assert (atan (y / x) <= 0). { rewrite <- atan_0. destruct (Req_dec (y / x) 0) as [-> |]; [lra|]. left. apply atan_increasing. lra. } lra.
    + assert (0 < y / x). { unfold Rdiv. pose proof (Rinv_lt_0_compat x Nx). nra. } assert (0 < atan (y / x)). { rewrite <- atan_0. apply atan_increasing. lra. } lra.
  - repeat match goal with |- context [if ?c then _ else _] => destruct c end; lra.
Qed.
Lemma some_atan2 y x : exists r, fatan2 y x r.
Proof.
  unfold fatan2. destruct (is_finite y && is_finite x)%bool; [|exists y; discriminate]. set (a := GeomModel.atan2 (B2R y) (B2R x)).
  destruct (stored4 (rd a)) as (r & F & V).
  - apply rd_fmt.
  - change 4 with (IZR 4). apply rd_le_int; [cbn; lia|apply atan2_bound].
  - exists r. intros _. cbv zeta. split; [exact F|]. unfold val in V. rewrite V. destruct (Req_dec a 0) as [E|E].
    + rewrite E, rd_0, Rminus_0_r, Rabs_R0. rewrite ulp_FLT_small; [apply bpow_gt_0|exact prec_pos|rewrite Rabs_R0; apply bpow_gt_0].
    + unfold rd. apply error_lt_ulp; [apply FLT_exp_valid; exact prec_pos|apply valid_rnd_N|exact E].
Qed.
Lemma largest_entry v : exists c, (c = vx v \/ c = vy v \/ c = vz v) /\ norm v / 2 <= Rabs c <= 2 * norm v.
Proof.
  assert (K : forall a b c, Rabs b <= Rabs a -> Rabs c <= Rabs a -> sqrt (a * a + b * b + c * c) / 2 <= Rabs a <= 2 * sqrt (a * a + b * b + c * c)).
  { intros a b c B C. pose proof (Rabs_pos a) as A. assert (SQ : forall t, t * t = Rabs t * Rabs t) by (intro t; rewrite <- Rabs_mult, Rabs_right; [reflexivity|apply Rle_ge, Rle_0_sqr]). rewrite (SQ a), (SQ b), (SQ c). pose proof (Rabs_pos b). pose proof (Rabs_pos c). set (x := Rabs a) in *. set (y := Rabs b) in *. set (z := Rabs c) in *.
    assert (L : sqrt (x * x + y * y + z * z) <= 2 * x). { rewrite <- (sqrt_square (2 * x)) by lra. apply sqrt_le_1_alt. nra. }
    assert (U : x <= sqrt (x * x + y * y + z * z)). { rewrite <- (sqrt_square x) at 1 by lra. apply sqrt_le_1_alt. nra. } lra. }
  unfold norm, norm2, dot. destruct (Rle_or_lt (Rabs (vy v)) (Rabs (vx v))), (Rle_or_lt (Rabs (vz v)) (Rabs (vx v))), (Rle_or_lt (Rabs (vz v)) (Rabs (vy v)));
  first [exists (vx v); split; [tauto|apply K; lra]
        |exists (vy v); split; [tauto|replace (vx v * vx v + vy v * vy v + vz v * vz v) with (vy v * vy v + vx v * vx v + vz v * vz v) by ring; apply K; lra]
        |exists (vz v); split; [tauto|replace (vx v * vx v + vy v * vy v + vz v * vz v) with (vz v * vz v + vx v * vx v + vy v * vy v) by ring; apply K; lra]].
Qed.
Lemma some_stable_norm v : exists n, fstable_norm v n.
Proof.
  unfold fstable_norm. destruct (is_finite (fx v)) eqn:X; [|exists (fx v); discriminate]. destruct (is_finite (fy v)) eqn:Y; [|exists (fx v); discriminate]. destruct (is_finite (fz v)) eqn:Z; [|exists (fx v); discriminate].
  destruct (largest_entry (V3 (B2R (fx v)) (B2R (fy v)) (B2R (fz v)))) as (c & C & B). cbn [vx vy vz] in C.
  assert (E : exists x, finite x /\ val x = c) by (destruct C as [-> | [-> | ->]]; [exists (fx v)|exists (fy v)|exists (fz v)]; (split; [assumption|reflexivity])). destruct E as (x & F & V).
  exists (fabs x). intros _. cbv zeta. change (B2R (fabs x)) with (val (fabs x)). rewrite fabs_val, V. split; [apply (fabs_finite x F)|exact B].
Qed.
Lemma some_quat m : exists q, fmatrix_quat m q.
Proof. eexists. eexists. split; [apply sum_left|reflexivity]. Qed.
Lemma some_quat_angle_axis q : exists angle axis, fquat_angle_axis q angle axis.
Proof.
  set (v := fquat_vec q). set (z := fadd (fadd (fmul (fx v) (fx v)) (fmul (fy v) (fy v))) (fmul (fz v) (fz v))).
  assert (N : fnorm v (fsqrt z)) by (exists z; split; [apply sum_left|reflexivity]).
  assert (M : exists n, if flt (fsqrt z) fepsilon then fstable_norm v n else n = fsqrt z) by (destruct (flt (fsqrt z) fepsilon); [apply some_stable_norm|eexists; reflexivity]).
  destruct M as [n M]. destruct (some_atan2 n (fabs (qfw q))) as [a A]. unfold fquat_angle_axis. fold v.
  destruct (feq n (of_int 0)) eqn:Q.
  - exists (of_int 0), (FV (of_int 1) (of_int 0) (of_int 0)), (fsqrt z), n. rewrite Q. auto.
  - do 2 eexists. exists (fsqrt z), n. rewrite Q. split; [exact N|]. split; [exact M|]. exists a. split; [exact A|]. split; reflexivity.
Qed.
Lemma some_log m : exists v, fso3_log m v.
Proof. destruct (some_quat m) as [q Q], (some_quat_angle_axis q) as (t & a & A). eexists. exists q, t, a. split; [exact Q|]. split; [exact A|reflexivity]. Qed.
Lemma some_interp m f : exists p, fso3_interp m f p.
Proof. destruct (some_log m) as [v V]. destruct (some_exp (FV (fmul (fx v) f) (fmul (fy v) f) (fmul (fz v) f))) as [p P]. exists p, v. split; assumption. Qed.

(** ** The identity *)
Lemma factor_finite a b : finite (fmul a b) -> finite b.
Proof. unfold finite, fmul. destruct a, b; cbn; try reflexivity; intro H; exact H. Qed.
Lemma sub_equal a b : finite a -> finite b -> val a = val b -> finite (fsub a b) /\ val (fsub a b) = 0.
Proof.
  intros A B E. assert (Z : val a - val b = 0) by lra. destruct (fsub_val a b A B) as [F V].
  - rewrite Z. unfold overflows. rewrite rd_0, Rabs_R0. intro H. pose proof (bpow_gt_0 radix2 1024). lra.
  - rewrite Z, rd_0 in V. split; assumption.
Qed.
Lemma log_symmetric m e v : stands_for e (m, mid) -> e <= / 2000 -> mtrans (mval m) = mval m -> fso3_log m v -> vfinite v /\ vval v = vzero.
Proof.
  intros S He T (q & angle & axis & Q & A & V). pose proof S as (Fm & Im & D). cbn [fst snd] in *. pose proof u_pos as Up. assert (Us : 1000 * u <= / 1000000) by (rewrite u_num; lra).
  assert (e0 : 0 <= e) by (eapply Rle_trans; [apply apart_pos|exact D]).
  destruct (quaternion_read m mid e Fm Im D He q Q) as (Fq & w & p & U & R & O).
  destruct (angle_axis_log q w p (3 * e + 22 * u) angle axis v Fq U O ltac:(lra) A V) as (F & _ & _ & Zv).
  split; [exact F|]. apply Zv. clear Zv F V A O U R.
  pose proof Fm as (A00 & A01 & A02 & A10 & A11 & A12 & A20 & A21 & A22).
  destruct Q as (t & St & ->).
  assert (P : flt (of_int 0) t = true).
  { destruct (entries_near m mid e Fm Im D He 1 0 0 0) as ((B0 & B1 & B2) & (ET & _) & _).
    { split; [ring|]. unfold quaternion_matrix, quaternion_turn, vzero, vscale, vadd, cross, mid. cbn [vx vy vz]. f_equal; ring. }
    destruct (trace_near _ _ _ _ B0 B1 B2 St) as (Ft & Dt & _). apply flt_val; [apply of_int_0|exact Ft|]. rewrite (proj2 of_int_0). apply Rabs_le_inv in ET. apply Rabs_le_inv in Dt. lra. }
  rewrite P in *. cbn [fpivot] in *. unfold fpivot in *. cbv zeta in *.
  unfold mtrans, mval in T. injection T as T01 T02 T10 T12 T20 T21.
  destruct Fq as (_ & Fx & Fy & Fz). cbn [qfx qfy qfz] in *. unfold fquat_vec, vval, vzero. cbn [qfx qfy qfz fx fy fz].
  destruct (sub_equal (f21 m) (f12 m)) as [G1 W1]; [assumption..|]. destruct (sub_equal (f02 m) (f20 m)) as [G2 W2]; [assumption..|]. destruct (sub_equal (f10 m) (f01 m)) as [G3 W3]; [assumption..|].
  f_equal; apply mul_zero; auto; eapply factor_finite; eassumption.
Qed.

(** ** None of the way and all of the way *)
Lemma interp_none m r e f p : stands_for e (m, r) -> e <= / 2000 -> finite f -> val f = 0 -> fso3_interp m f p -> mfinite p /\ mval p = mid.
Proof.
  intros S He F F0 (v & L & X). destruct (log_near m r e v S He L) as ((Fx & Fy & Fz) & _).
  destruct (mul_zero (fx v) f Fx F (or_intror F0)) as [G1 V1]. destruct (mul_zero (fy v) f Fy F (or_intror F0)) as [G2 V2]. destruct (mul_zero (fz v) f Fz F (or_intror F0)) as [G3 V3].
  apply exp_zero in X; [exact X|repeat split; assumption|]. unfold vval, vzero. cbn [fx fy fz]. congruence.
Qed.
Lemma mul_one x : fmul x (of_int 1) = x.
Proof.
  destruct of_int_1 as [F1 V1]. destruct (is_finite x) eqn:F.
  - pose proof (Bmult_correct 53 1024 prec_pos prec_emax mode_NE x (of_int 1)) as H. change (Bmult mode_NE x (of_int 1)) with (fmul x (of_int 1)) in H.
    change (B2R (of_int 1)) with (val (of_int 1)) in H. rewrite V1, Rmult_1_r in H. cbn [round_mode] in H. change (round radix2 (SpecFloat.fexp 53 1024) ZnearestE (B2R x)) with (rd (val x)) in H.
    rewrite (rd_id (val x)) in H by apply val_fmt. rewrite Rlt_bool_true in H by apply abs_B2R_lt_emax. destruct H as (V & G & S).
    unfold finite in F1. rewrite F, F1 in G. cbn [andb] in G. apply B2R_Bsign_inj; [exact G|exact F|exact V|]. rewrite S by (destruct (fmul x (of_int 1)); try reflexivity; discriminate G).
    replace (Bsign (of_int 1)) with false by reflexivity. apply Bool.xorb_false_r.
  - assert (B : exists m e h, of_int 1 = B754_finite false m e h). { unfold finite, val in *. destruct (of_int 1) as [s| | |s m e h]; cbn in V1, F1; try discriminate; try lra. destruct s; [exfalso|eauto]. unfold F2R in V1. cbn in V1. pose proof (bpow_gt_0 radix2 e). assert (IZR (Z.neg m) < 0) by (apply IZR_lt; lia). nra. }
    destruct B as (m & e & h & ->). destruct x as [| s | |]; try discriminate F; cbn; [destruct s; reflexivity|reflexivity].
Qed.
Lemma interp_all m p : fso3_interp m (of_int 1) p <-> exists v, fso3_log m v /\ fso3_exp v p.
Proof. unfold fso3_interp. split; intros (v & L & X); exists v; (split; [exact L|]); rewrite !mul_one in *; destruct v; exact X. Qed.

(** ** Half turns *)
Definition imat (a b c : Z) : fmat := FM (of_int a) (of_int 0) (of_int 0) (of_int 0) (of_int b) (of_int 0) (of_int 0) (of_int 0) (of_int c).
Lemma imat_val a b c : (Z.abs a <= 2 ^ 53)%Z -> (Z.abs b <= 2 ^ 53)%Z -> (Z.abs c <= 2 ^ 53)%Z -> mfinite (imat a b c) /\ mval (imat a b c) = M3 (IZR a) 0 0 0 (IZR b) 0 0 0 (IZR c).
Proof. intros A B C. destruct (of_small a A), (of_small b B), (of_small c C), of_int_0. split; [repeat split; assumption|]. unfold mval, imat. cbn [f00 f01 f02 f10 f11 f12 f20 f21 f22]. congruence. Qed.
Lemma half_x (s : R) : s = 1 \/ s = -1 -> rotation_by (V3 (s * PI) 0 0) (M3 1 0 0 0 (-1) 0 0 0 (-1)) /\ norm (V3 (s * PI) 0 0) = PI.
Proof.
  intro E. pose proof PI_bounds as PB. assert (SS : s * s = 1) by (destruct E as [-> | ->]; ring).
  assert (N : norm (V3 (s * PI) 0 0) = PI). { apply norm_is; [lra|]. unfold dot. cbn [vx vy vz]. replace (s * PI * (s * PI) + 0 * 0 + 0 * 0) with (s * s * (PI * PI)) by ring. rewrite SS. ring. }
  split; [|exact N]. right. split; [intro Z; injection Z; intros; destruct E; subst; lra|]. rewrite N. assert (I : direction (V3 (s * PI) 0 0) = V3 s 0 0) by (unfold direction; rewrite N; unfold vscale; cbn [vx vy vz]; f_equal; field; lra).
  rewrite I. unfold turning, turned, vscale, vadd, vsub, cross, dot. cbn [vx vy vz]. rewrite cos_PI, sin_PI. destruct E as [-> | ->]; f_equal; lra.
Qed.
Lemma half_turn_choice : let m := imat 1 (-1) (-1) in let r := M3 1 0 0 0 (-1) 0 0 0 (-1) in
  stands_for 0 (m, r) /\ forall v, fso3_log m v -> exists w, rotation_by w r /\ norm w = PI /\ 3 <= norm (vsub (vval v) w).
Proof.
  intros m r. destruct (imat_val 1 (-1) (-1)) as [F V]; try (cbn; lia). destruct (half_x 1 (or_introl eq_refl)) as [R1 N1]. destruct (half_x (-1) (or_intror eq_refl)) as [R2 N2]. pose proof PI_bounds as PB.
  split.
  - split; [exact F|]. split; [exact (rotation_by_rotation _ _ R1)|]. cbn [fst snd]. fold m in V. rewrite V. right. unfold apart, size, madd, mscale, r. cbn [m00 m01 m02 m10 m11 m12 m20 m21 m22]. replace (_ + _) with 0 by ring. apply sqrt_0.
  - intros v _. destruct (Rle_or_lt 3 (norm (vsub (vval v) (V3 (1 * PI) 0 0)))) as [L|L]; [exists (V3 (1 * PI) 0 0); auto|]. exists (V3 (-1 * PI) 0 0). split; [exact R2|]. split; [exact N2|].
    pose proof (norm_triangle (vsub (vval v) (V3 (-1 * PI) 0 0)) (vneg (vsub (vval v) (V3 (1 * PI) 0 0)))) as T. rewrite norm_neg in T.
    replace (vadd (vsub (vval v) (V3 (-1 * PI) 0 0)) (vneg (vsub (vval v) (V3 (1 * PI) 0 0)))) with (V3 (2 * PI) 0 0) in T by (unfold vadd, vsub, vneg; cbn [vx vy vz]; f_equal; ring).
    rewrite (norm_is (V3 (2 * PI) 0 0) (2 * PI)) in T; [lra|lra|unfold dot; cbn [vx vy vz]; ring].
Qed.
Lemma log_exp v m w : vfinite v -> norm (vval v) <= 3 -> fso3_exp v m -> fso3_log m w -> vfinite w /\ norm (vsub (vval w) (vval v)) <= 1150 * u.
Proof.
  intros F N X L. pose proof u_pos as Up. assert (Us : 1000 * u <= / 1000000) by (rewrite u_num; lra). destruct (rotation_by_some (vval v)) as [r R].
  assert (B : norm (vval v) <= 2 ^ 490) by (apply Rle_trans with (2 ^ 2); [lra|apply Rle_pow; [lra|lia]]).
  pose proof (exp_near v r m F B R X) as S. assert (E : (51 + 4 * norm (vval v)) * u <= 63 * u) by (apply Rmult_le_compat_r; lra).
  assert (H : (51 + 4 * norm (vval v)) * u <= / 2000) by lra.
  split; [apply (log_near m r _ w S H L)|]. pose proof (log_recovers m r _ w (vval v) S H L R N). lra.
Qed.
(** The example of the theorems: three radians about (1, 2, 2) / 3. *)
Lemma log_case : exists m v, fso3_exp (ivec 1 2 2) m /\ fso3_log m v /\ stands_for (63 * u) (m, turning 3 (V3 (1 / 3) (2 / 3) (2 / 3))) /\ 63 * u <= / 2000 /\
  rotation_by (V3 1 2 2) (turning 3 (V3 (1 / 3) (2 / 3) (2 / 3))) /\ norm (V3 1 2 2) <= 3 /\ 153 / 10 * (63 * u) + 182 * u <= / 10 ^ 12.
Proof.
  destruct exp_case as (F & N & B & R & _). destruct (some_exp (ivec 1 2 2)) as [m M]. destruct (some_log m) as [v L]. exists m, v. split; [exact M|]. split; [exact L|].
  pose proof (exp_near _ _ m F B R M) as S. rewrite N in S. replace ((51 + 4 * 3) * u) with (63 * u) in S by ring. split; [exact S|]. split; [rewrite u_num; lra|].
  destruct (ivec_val 1 2 2) as [_ W]; try (cbn; lia). rewrite W in R, N. split; [exact R|]. split; [rewrite N; lra|]. rewrite u_num. lra.
Qed.
Lemma half_float : finite fhalf /\ val fhalf = 1 / 2.
Proof. destruct fhalf_val as [F V]. split; [exact F|]. lra. Qed.
