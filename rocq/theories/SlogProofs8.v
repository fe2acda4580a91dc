(** Proofs about SE3::log in double precision: poses that do not turn, and lengths. *)
From Coq Require Import Reals Psatz ZArith.
From Flocq Require Import Core BinarySingleNaN.
From Verif Require Import Cpp RotSpec GeomModel RotProofs CoeffProofs DerivSpec DerivProofs ScrewSpec LieProofs DiffProofs FloatModel FloatSpec NrmSpec FloatProofs NrmProofs DriftModel DriftSpec DriftProofs DriftProofs2 SpinModel SpinSpec SpinProofs SpinProofs2 TwistModel TwistProofs TwistProofs2 TwistProofs3 TlogModel TlogSpec TlogProofs TlogProofs2 TlogProofs4 TlogProofs5 TlogProofs6 SlogModel SlogProofs SlogProofs2 SlogProofs3 SlogProofs4 SlogProofs5 SlogProofs6 SlogProofs7.
From Verif Require JetLaws.
Local Open Scope R_scope.

Lemma sub_zero a b : finite a -> finite b -> val b = 0 -> finite (fsub a b) /\ val (fsub a b) = val a.
Proof.
  intros A B Z. destruct (fsub_val a b A B) as [F V]; [rewrite Z, Rminus_0_r; apply val_fits|]. split; [exact F|]. rewrite V, Z, Rminus_0_r. apply rd_id, val_fmt.
Qed.
Lemma untwist_still k t n m : finite k -> finite t -> finite n -> finite m -> val n = 0 -> val m = 0 ->
  finite (fadd (fsub t (fmul fhalf n)) (fmul k m)) /\ val (fadd (fsub t (fmul fhalf n)) (fmul k m)) = val t.
Proof.
  intros K T N M n0 m0. destruct half_float as [Fh Vh]. destruct (mul_zero fhalf n Fh N (or_intror n0)) as [F1 V1]. destruct (mul_zero k m K M (or_intror m0)) as [F2 V2].
  destruct (sub_zero t (fmul fhalf n) T F1 V1) as [F3 V3]. destruct (add_zero _ _ F3 F2 (or_intror V2)) as [F4 V4]. split; [exact F4|]. lra.
Qed.
Lemma se3_log_no_turn g e w v : stands_for e (frot g, mid) -> e <= / 2000 -> mtrans (mval (frot g)) = mval (frot g) -> vfinite (ftrans g) -> fse3_log g w v ->
  (vfinite w /\ vval w = vzero) /\ vfinite v /\ vval v = vval (ftrans g).
Proof.
  intros S He M (Tx & Ty & Tz) (L & z & a & b & c & Z & C & ->). destruct (log_symmetric _ _ _ S He M L) as [W O]. split; [split; assumption|].
  destruct (zero_squared w z W O Z) as [Fz Vz]. destruct (zero_coeffs z a b c Fz Vz C) as ([Fa Va] & Fb & Fc).
  assert (T : flt z FTINY_SQUARE_ANGLE = true) by (apply flt_val; [exact Fz|apply threshold|]; rewrite Vz; destruct threshold; lra).
  assert (K : finite (flog_coeff z a b c)).
  { unfold flog_coeff. rewrite T. apply (coeff_tiny 0 z); [lra|lra|exact Fz|lra|]. rewrite Vz. replace (0 - 0 * 0) with 0 by ring. rewrite Rabs_R0. pose proof h_pos. lra. }
  revert K. generalize (flog_coeff z a b c). intros k K. destruct W as (Wx & Wy & Wz). unfold vval, vzero in O. injection O as Ox Oy Oz. unfold funtwist, fcross. cbn [fx fy fz].
  destruct (zero_cross _ _ _ _ Wy Tz Wz Ty Oy Oz) as [N1 U1]. destruct (zero_cross _ _ _ _ Wz Tx Wx Tz Oz Ox) as [N2 U2]. destruct (zero_cross _ _ _ _ Wx Ty Wy Tx Ox Oy) as [N3 U3].
  destruct (zero_cross _ _ _ _ Wy N3 Wz N2 Oy Oz) as [M1 X1]. destruct (zero_cross _ _ _ _ Wz N1 Wx N3 Oz Ox) as [M2 X2]. destruct (zero_cross _ _ _ _ Wx N2 Wy N1 Ox Oy) as [M3 X3].
  destruct (untwist_still k _ _ _ K Tx N1 M1 U1 X1) as [I1 J1]. destruct (untwist_still k _ _ _ K Ty N2 M2 U2 X2) as [I2 J2]. destruct (untwist_still k _ _ _ K Tz N3 M3 U3 X3) as [I3 J3].
  unfold vfinite, vval. cbn [fx fy fz]. split; [split; [exact I1|split; [exact I2|exact I3]]|]. f_equal; assumption.
Qed.

Lemma path_length_unique p a b : path_length p a -> path_length p b -> a = b.
Proof. intros A B. exact (is_lub_u _ _ _ A B). Qed.
Lemma se3_length_near g r e l : stands_for e (frot g, r) -> e <= / 2000 -> vfinite (ftrans g) -> norm (vval (ftrans g)) <= 2 ^ 488 -> fse3_arc_length g l ->
  finite l /\ exists t s len, norm t <= PI + 22 * u /\ turns_within (85 / 10 * e + 101 * u) t r /\
    norm (vsub (screw t s 1) (vval (ftrans g))) <= 1383 * u * norm (vval (ftrans g)) + 23 * h /\
    path_length (screw t s) len /\ Rabs (val l - len) <= 255 / 100 * u * len + / 2 ^ 498.
Proof.
  intros S He Ft HT (w & v & L & N). assert (HT' : norm (vval (ftrans g)) <= 2 ^ 500) by (eapply Rle_trans; [exact HT|apply Rle_pow; [lra|lia]]).
  destruct (se3_log_moves g r e w v S He Ft HT' L) as ((Fw & Fv) & Nw & Tw & E1 & _). destruct (se3_log_long g r e w v S He Ft HT' L) as [V1 _].
  assert (h1 : h <= / 1000000) by (pose proof h_small_u; rewrite u_num in *; lra). assert (Q : 2 ^ 490 = 4 * 2 ^ 488) by (replace 4 with (2 ^ 2) by ring; rewrite pow_sum; reflexivity). assert (Q1 : 1 <= 2 ^ 488) by (apply pow_R1_Rle; lra).
  destruct (length_near v l Fv ltac:(lra) N) as [Fl E]. split; [exact Fl|]. exists (vval w), (vval v), (norm (vval v)). repeat (split; [assumption|]). split; [apply screw_length|exact E].
Qed.
Lemma se3_length_follows g r e l w0 v0 d len : stands_for e (frot g, r) -> e <= / 2000 -> vfinite (ftrans g) -> norm (vval (ftrans g)) <= 2 ^ 488 -> fse3_arc_length g l ->
  rotation_by w0 r -> norm w0 <= 3 -> norm (vsub (vval (ftrans g)) (screw w0 v0 1)) <= d -> path_length (screw w0 v0) len ->
  Rabs (val l - len) <= 187 / 100 * d + (38 * e + 1840 * u) * norm (vval (ftrans g)) + / 2 ^ 497.
Proof.
  intros S He Ft HT (w & v & L & N) R0 N0 D P. rewrite (path_length_unique _ _ _ P (screw_length w0 v0)). assert (HT' : norm (vval (ftrans g)) <= 2 ^ 500) by (eapply Rle_trans; [exact HT|apply Rle_pow; [lra|lia]]).
  destruct (se3_log_moves g r e w v S He Ft HT' L) as ((Fw & Fv) & Nw & Tw & E1 & _). destruct (se3_log_long g r e w v S He Ft HT' L) as [V1 _]. destruct (se3_log_recovers g r e w v w0 v0 d S He Ft HT' L R0 N0 D) as [_ E2].
  assert (h1 : h <= / 1000000) by (pose proof h_small_u; rewrite u_num in *; lra). assert (Q : 2 ^ 490 = 4 * 2 ^ 488) by (replace 4 with (2 ^ 2) by ring; rewrite pow_sum; reflexivity). assert (Q1 : 1 <= 2 ^ 488) by (apply pow_R1_Rle; lra).
  destruct (length_near v l Fv ltac:(lra) N) as [Fl E]. set (T := norm (vval (ftrans g))) in *. assert (T0 : 0 <= T) by apply norm_nonneg. pose proof u_pos as Up. pose proof h_pos as Hp.
  assert (H4 : / 2 ^ 497 = 2 * / 2 ^ 498) by (replace (2 ^ 498) with (2 * 2 ^ 497) by reflexivity; field; apply pow_nonzero; lra).
  assert (hs : 24 * h <= / 2 ^ 498).
  { replace (/ 2 ^ 498) with (2 ^ 5 * / 2 ^ 503) by (replace (2 ^ 503) with (2 ^ 5 * 2 ^ 498) by (rewrite pow_sum; reflexivity); field; split; apply pow_nonzero; lra).
    apply Rmult_le_compat; [lra|lra|lra|]. eapply Rle_trans; [apply h_small|]. apply Rinv_le_contravar; [apply pow_lt; lra|apply Rle_pow; [lra|lia]]. }
  assert (uV : u * norm (vval v) <= u * (188 / 100 * T + 23 * h)) by (apply Rmult_le_compat_l; lra). assert (uh : u * h <= / 1000000 * h) by (apply Rmult_le_compat_r; [lra|rewrite u_num; lra]). assert (uT : 0 <= u * T) by (apply Rmult_le_pos; lra).
  pose proof (norm_near (vval v) v0) as A. pose proof (norm_near v0 (vval v)) as B. replace (vsub v0 (vval v)) with (vneg (vsub (vval v) v0)) in B by vring. rewrite norm_neg in B.
  apply Rabs_le_inv in E. apply Rabs_le. lra.
Qed.
(** Without a turn. *)
Lemma se3_length_no_turn g e l : stands_for e (frot g, mid) -> e <= / 2000 -> mtrans (mval (frot g)) = mval (frot g) -> vfinite (ftrans g) -> norm (vval (ftrans g)) <= 2 ^ 490 -> fse3_arc_length g l ->
  finite l /\ Rabs (val l - norm (vval (ftrans g))) <= 255 / 100 * u * norm (vval (ftrans g)) + / 2 ^ 498.
Proof.
  intros S He M Ft HT (w & v & L & N). destruct (se3_log_no_turn g e w v S He M Ft L) as (_ & Fv & V). rewrite <- V in *. exact (length_near v l Fv HT N).
Qed.
(** A pose to try the theorems on: three radians about (1, 2, 2) / 3 while moving along
    (4, -3, 0). *)
Lemma se3_case : exists g, fse3_exp (ivec 1 2 2) (ivec 4 (-3) 0) g /\ stands_for (63 * u) (frot g, turning 3 (V3 (1 / 3) (2 / 3) (2 / 3))) /\ 63 * u <= / 2000 /\ vfinite (ftrans g) /\ norm (vval (ftrans g)) <= 6 /\
  rotation_by (V3 1 2 2) (turning 3 (V3 (1 / 3) (2 / 3) (2 / 3))) /\ norm (V3 1 2 2) <= 3 /\ norm (vsub (vval (ftrans g)) (screw (V3 1 2 2) (V3 4 (-3) 0) 1)) <= / 10 ^ 12.
Proof.
  destruct exp_case as (F & N & L & R & _). destruct (ivec_val 1 2 2) as [_ Vw]; try (cbn; lia). destruct (ivec_val 4 (-3) 0) as [G W]; try (cbn; lia). assert (NV : norm (V3 4 (-3) 0) = 5) by (apply norm_is; [lra|unfold dot; cbn [vx vy vz]; lra]).
  destruct (some_se3_exp (ivec 1 2 2) (ivec 4 (-3) 0)) as [g E]. exists g. split; [exact E|].
  destruct (se3_exp_near _ _ _ _ F G L ltac:(rewrite W, NV; apply Rle_trans with (2 ^ 3); [lra|apply Rle_pow; [lra|lia]]) R E) as (S & Ft & D). rewrite N, W, Vw, NV in *. pose proof u_pos as Up.
  split; [destruct S as (S1 & S2 & S3); split; [exact S1|]; split; [exact S2|]; eapply Rle_trans; [exact S3|]; lra|]. split; [rewrite u_num; lra|]. split; [exact Ft|].
  rewrite Rmax_left in D by lra. assert (hs : h <= u) by (pose proof h_small_u; rewrite u_num in *; lra). fold h in D. assert (D' : norm (vsub (vval (ftrans g)) (screw (V3 1 2 2) (V3 4 (-3) 0) 1)) <= / 10 ^ 12) by (eapply Rle_trans; [exact D|]; rewrite u_num in *; lra).
  split; [|split; [exact R|split; [lra|exact D']]].
  pose proof (norm_near (vval (ftrans g)) (screw (V3 1 2 2) (V3 4 (-3) 0) 1)) as A. pose proof (screw_bound (V3 1 2 2) (V3 4 (-3) 0) 1) as B. rewrite NV in B. rewrite ?Rabs_R1 in B. lra.
Qed.
