(** Opposite rotations made in double precision. *)
From Coq Require Import Psatz.
From Flocq Require Import Core BinarySingleNaN Mult_error.
From Verif Require Import Cpp FloatModel FloatSpec FloatProofs NrmSpec NrmProofs LenProofs Vec RotSpec RotProofs CoeffProofs DriftModel DriftSpec DriftProofs DriftProofs2 SpinModel SpinSpec SpinProofs SpinProofs2.
From Verif Require FSampleProofs.
Local Open Scope R_scope.
Lemma fsub_neg x y : fsub x (fneg y) = fadd x y.
Proof. destruct x as [[]|[]| |sx mx ex Hx], y as [[]|[]| |[] my ey Hy]; reflexivity. Qed.
Lemma fadd_neg x y : fadd x (fneg y) = fsub x y.
Proof. destruct x as [[]|[]| |sx mx ex Hx], y as [[]|[]| |[] my ey Hy]; reflexivity. Qed.
Lemma fneg_fneg x : fneg (fneg x) = x.
Proof. apply Bopp_involutive. Qed.
Lemma fneg_val x : val (fneg x) = - val x.
Proof. apply B2R_Bopp. Qed.
Lemma fneg_finite x : is_finite (fneg x) = is_finite x.
Proof. apply is_finite_Bopp. Qed.
Lemma round_opp_NE x : round radix2 (FLT_exp (-1074) 53) ZnearestE (- x) = - round radix2 (FLT_exp (-1074) 53) ZnearestE x.
Proof. apply (rd_opp x). Qed.
Lemma finite_same (a b : f64) : finite a -> finite b -> val a = val b -> Bsign a = Bsign b -> a = b.
Proof. apply B2R_Bsign_inj. Qed.
Lemma same_neg_mul x y : finite x -> finite y -> fmul (fneg x) y = fneg (fmul x y).
Proof.
  intros X Y. pose proof (@Bmult_correct 53 1024 prec_pos prec_emax mode_NE x y) as A. pose proof (@Bmult_correct 53 1024 prec_pos prec_emax mode_NE (fneg x) y) as B.
  assert (E : B2R (fneg x) * B2R y = - (B2R x * B2R y)) by (change (B2R (fneg x)) with (val (fneg x)); rewrite fneg_val; unfold val; ring). rewrite E in B.
  change (round radix2 (SpecFloat.fexp 53 1024) (round_mode mode_NE)) with rd in A, B. rewrite rd_opp, Rabs_Ropp in B.
  assert (S : Bsign (fneg x) = negb (Bsign x)) by (apply Bsign_Bopp; destruct x; try reflexivity; discriminate X).
  rewrite S in B. rewrite fneg_finite in B. unfold finite in X, Y. rewrite X, Y in A, B.
  change (Bmult mode_NE (fneg x) y) with (fmul (fneg x) y) in B. change (Bmult mode_NE x y) with (fmul x y) in A.
  destruct (Rlt_bool _ _).
  - destruct A as (VA & FA & SA), B as (VB & FB & SB).
    assert (nan : forall t : f64, is_finite t = true -> is_nan t = false) by (intros t T; destruct t; try reflexivity; discriminate T).
    specialize (SA (nan _ FA)). specialize (SB (nan _ FB)).
    apply finite_same; [exact FB|unfold finite; rewrite fneg_finite; exact FA| |].
    + rewrite fneg_val. unfold val. rewrite VA, VB. reflexivity.
    + rewrite SB. unfold fneg. rewrite Bsign_Bopp by (apply nan, FA). rewrite SA. destruct (Bsign x), (Bsign y); reflexivity.
  - apply FSampleProofs.inf_of in A, B. rewrite A, B. cbn. f_equal. destruct (Bsign x), (Bsign y); reflexivity.
Qed.
Lemma fmul_comm x y : fmul x y = fmul y x.
Proof.
  destruct (is_finite x) eqn:X; [destruct (is_finite y) eqn:Y|].
  - pose proof (@Bmult_correct 53 1024 prec_pos prec_emax mode_NE x y) as A. pose proof (@Bmult_correct 53 1024 prec_pos prec_emax mode_NE y x) as B.
    rewrite (Rmult_comm (B2R y)), X, Y in *. rewrite (xorb_comm (Bsign y)) in B.
    change (Bmult mode_NE y x) with (fmul y x) in B. change (Bmult mode_NE x y) with (fmul x y) in A.
    destruct (Rlt_bool _ _).
    + destruct A as (VA & FA & SA), B as (VB & FB & SB).
      assert (nan : forall t : f64, is_finite t = true -> is_nan t = false) by (intros t T; destruct t; try reflexivity; discriminate T).
      apply finite_same; [exact FA|exact FB|unfold val; congruence|]. rewrite (SA (nan _ FA)), (SB (nan _ FB)). reflexivity.
    + apply FSampleProofs.inf_of in A, B. congruence.
  - destruct x as [[]|[]| |[] ? ? ?], y as [[]|[]| |[] ? ? ?]; try discriminate; reflexivity.
  - destruct x as [[]|[]| |[] ? ? ?], y as [[]|[]| |[] ? ? ?]; try discriminate; reflexivity.
Qed.
Lemma fmul_neg_l x y : fmul (fneg x) y = fneg (fmul x y).
Proof.
  destruct (is_finite x) eqn:X; [destruct (is_finite y) eqn:Y|]; [apply same_neg_mul; assumption| |]; destruct x as [[]|[]| |[] ? ? ?], y as [[]|[]| |[] ? ? ?]; try discriminate; reflexivity.
Qed.
Lemma fmul_neg_r x y : fmul x (fneg y) = fneg (fmul x y).
Proof. rewrite fmul_comm, fmul_neg_l, fmul_comm. reflexivity. Qed.
Lemma fdiv_neg_l x y : fdivide (fneg x) y = fneg (fdivide x y).
Proof.
  destruct (is_finite x) eqn:X; [destruct (is_finite y) eqn:Y|]; [|destruct x as [[]|[]| |[] ? ? ?], y as [[]|[]| |[] ? ? ?]; try discriminate; reflexivity..].
  destruct (Req_dec (B2R y) 0) as [Z|Z].
  { destruct y as [sy|sy| |sy my ey Hy]; try discriminate; [destruct x as [[]|[]| |[] ? ? ?], sy; try discriminate; reflexivity|].
    exfalso. unfold B2R in Z. destruct sy; apply eq_0_F2R in Z; discriminate Z. }
  pose proof (@Bdiv_correct 53 1024 prec_pos prec_emax mode_NE x y Z) as A. pose proof (@Bdiv_correct 53 1024 prec_pos prec_emax mode_NE (fneg x) y Z) as B.
  assert (E : B2R (fneg x) / B2R y = - (B2R x / B2R y)) by (change (B2R (fneg x)) with (val (fneg x)); rewrite fneg_val; unfold val; field; exact Z). rewrite E in B.
  change (round radix2 (SpecFloat.fexp 53 1024) (round_mode mode_NE)) with rd in A, B. rewrite rd_opp, Rabs_Ropp in B.
  assert (S : Bsign (fneg x) = negb (Bsign x)) by (apply Bsign_Bopp; destruct x; try reflexivity; discriminate X).
  rewrite S in B. rewrite fneg_finite in B. rewrite X in A, B.
  change (Bdiv mode_NE (fneg x) y) with (fdivide (fneg x) y) in B. change (Bdiv mode_NE x y) with (fdivide x y) in A.
  destruct (Rlt_bool _ _).
  - destruct A as (VA & FA & SA), B as (VB & FB & SB).
    assert (nan : forall t : f64, is_finite t = true -> is_nan t = false) by (intros t T; destruct t; try reflexivity; discriminate T).
    specialize (SA (nan _ FA)). specialize (SB (nan _ FB)).
    apply finite_same; [exact FB|unfold finite; rewrite fneg_finite; exact FA| |].
    + rewrite fneg_val. unfold val. rewrite VA, VB. reflexivity.
    + rewrite SB. unfold fneg. rewrite Bsign_Bopp by (apply nan, FA). rewrite SA. destruct (Bsign x), (Bsign y); reflexivity.
  - apply FSampleProofs.inf_of in A, B. rewrite A, B. cbn. f_equal. destruct (Bsign x), (Bsign y); reflexivity.
Qed.
Lemma squared_neg v z : fsquared_norm (fvneg v) z <-> fsquared_norm v z.
Proof. unfold fsquared_norm, fdot, fvneg. cbn [fx fy fz]. rewrite !fmul_neg_l, !fmul_neg_r, !fneg_fneg. tauto. Qed.
Lemma angle_axis_opposite t a m : fangle_axis t a m -> fangle_axis t (fvneg a) (fmtrans m).
Proof.
  intros (s & c & S & C & ->). exists s, c. split; [exact S|]. split; [exact C|]. cbv zeta. unfold fmtrans, fvneg. cbn [f00 f01 f02 f10 f11 f12 f20 f21 f22 fx fy fz].
  rewrite !fmul_neg_r, !fmul_neg_l, !fneg_fneg, !fsub_neg, !fadd_neg. reflexivity.
Qed.
Lemma normalized_neg v w : fnormalized v w -> fnormalized (fvneg v) (fvneg w).
Proof.
  intros (z & D & ->). exists z. split; [apply squared_neg, D|]. destruct (flt (of_int 0) z); [|reflexivity]. unfold fvneg. cbn [fx fy fz]. rewrite !fdiv_neg_l. reflexivity.
Qed.
Lemma exp_opposite v m : fso3_exp v m -> fso3_exp (fvneg v) (fmtrans m).
Proof.
  intros (t & a & (z & D & E) & W & M). exists t, (fvneg a). split; [exists z; split; [apply squared_neg, D|exact E]|]. split; [apply normalized_neg, W|]. apply angle_axis_opposite, M.
Qed.
Lemma fvneg_fvneg v : fvneg (fvneg v) = v.
Proof. destruct v as [a b c]. unfold fvneg. cbn [fx fy fz]. rewrite !fneg_fneg. reflexivity. Qed.
Lemma fmtrans_fmtrans m : fmtrans (fmtrans m) = m.
Proof. destruct m as [a b c d e f g h i]. reflexivity. Qed.
Lemma exp_opposite_iff v m : fso3_exp (fvneg v) (fmtrans m) <-> fso3_exp v m.
Proof. split; [|apply exp_opposite]. intro H. apply exp_opposite in H. rewrite fvneg_fvneg, fmtrans_fmtrans in H. exact H. Qed.
Lemma quaternion_conjugate q : fquaternion (fconjugate q) = fmtrans (fquaternion q).
Proof.
  destruct q as [w x y z]. unfold fquaternion, fconjugate, fmtrans. cbn [qfw qfx qfy qfz f00 f01 f02 f10 f11 f12 f20 f21 f22].
  repeat first [rewrite fmul_neg_r|rewrite fmul_neg_l|rewrite fneg_fneg|rewrite fsub_neg|rewrite fadd_neg]. reflexivity.
Qed.
Lemma quaternion_opposite q : fquaternion (fopposite q) = fquaternion q.
Proof.
  destruct q as [w x y z]. unfold fquaternion, fopposite. cbn [qfw qfx qfy qfz].
  repeat first [rewrite fmul_neg_r|rewrite fmul_neg_l|rewrite fneg_fneg]. reflexivity.
Qed.
Lemma composed_exps A x p : every (made_by_exp A) x -> A <= 2 ^ 490 ->
  bound ((51 + 4 * A) * u) x <= 1 / 10 -> rotation_of (rmap fst x) p ->
  mfinite p /\ is_rotation (exact_rotation (rmap snd x)) /\ apart (mval p) (exact_rotation (rmap snd x)) <= 10 / 9 * bound ((51 + 4 * A) * u) x.
Proof.
  intros E L B P. apply composed_close; [|exact B|exact P]. clear B P p. induction x as [[m r]|x IHx y IHy|x IHx]; cbn [every] in *.
  - destruct E as (v & F & N & R & M). destruct (exp_near v r m F ltac:(lra) R M) as (Fm & Rr & D). split; [exact Fm|]. split; [exact Rr|]. cbn [fst snd] in *.
    eapply Rle_trans; [exact D|]. pose proof u_pos. nra.
  - destruct E as [E1 E2]. split; [apply IHx, E1|apply IHy, E2].
  - apply IHx, E.
Qed.
Lemma turning_turns t n v : mvec (turning t n) v = turned t n v.
Proof. destruct v as [a b c], n as [x y z]. unfold mvec, turning, turned, vadd, vsub, vscale, cross, dot. cbn [m00 m01 m02 m10 m11 m12 m20 m21 m22 vx vy vz]. f_equal; ring. Qed.
Lemma quaternion_case : let q := FQ (quotient 3 5) (of_int 0) (of_int 0) (quotient 4 5) in
  qfinite q /\ 3 / 5 * (3 / 5) + dot (V3 0 0 (4 / 5)) (V3 0 0 (4 / 5)) = 1 /\ qoff q (3 / 5) (V3 0 0 (4 / 5)) <= 2 * u /\ 2 * u <= / 100.
Proof.
  destruct near_3_5 as [F E], near_4_5 as [G D]. intro q. split; [repeat split; first [exact F|exact G|apply of_int_0]|]. split; [unfold dot; cbn [vx vy vz]; lra|]. split; [|rewrite u_num; lra].
  unfold qoff, q. cbn [qfw qfx qfy qfz vx vy vz]. rewrite (proj2 of_int_0). pose proof u_pos. rewrite <- (sqrt_square (2 * u)) by lra. apply sqrt_le_1_alt.
  clear - E D H. apply Rabs_le_inv in E, D. set (a := val (quotient 3 5) - 3 / 5) in *. set (b := val (quotient 4 5) - 4 / 5) in *. clearbody a b.
  assert (U : / 2 ^ 54 = u / 2) by (rewrite u_num; lra). rewrite U in *. clear U. nra.
Qed.
Lemma long_case : let v := FV (NrmSpec.double 1 600) (of_int 0) (of_int 0) in vfinite v /\ 2 ^ 512 <= Rabs (val (fx v)).
Proof.
  intro v. assert (E : val (NrmSpec.double 1 600) = bpow radix2 600).
  { rewrite val_sf. replace (B2SF (NrmSpec.double 1 600)) with (SpecFloat.S754_finite false 4503599627370496 548) by (vm_compute; reflexivity). rewrite sf_value. cbn [cond_Zopp].
    change (IZR 4503599627370496) with (bpow radix2 52). rewrite <- bpow_plus. reflexivity. }
  split; [repeat split; reflexivity|]. cbn [v fx]. rewrite E. rewrite Rabs_right by (apply Rle_ge, bpow_ge_0). rewrite <- (bpow_pow 512). apply bpow_le. lia.
Qed.
Lemma two_k : exists q, qfinite q /\ 1 <= val (qfz q) /\ forall r, is_rotation r -> 6 <= apart (mval (fquaternion q)) r.
Proof.
  set (q := FQ (of_int 0) (of_int 0) (of_int 0) (of_int 2)). exists q. destruct (of_small 2) as [F2 V2]; [lia|].
  split; [repeat split; reflexivity|]. split; [unfold q; cbn [qfz]; rewrite V2; lra|]. intros r R.
  assert (E : val (f00 (fquaternion q)) = -7).
  { rewrite val_sf. replace (B2SF (f00 (fquaternion q))) with (SpecFloat.S754_finite true 7881299347898368 (-50)) by (vm_compute; reflexivity). rewrite sf_value. cbn [cond_Zopp Z.opp]. change (bpow radix2 (-50)) with (/ 1125899906842624). lra. }
  destruct (entry_size (madd (mval (fquaternion q)) (mscale (-1) r))) as (D & _). unfold apart. eapply Rle_trans; [|exact D]. unfold madd, mscale. cbn [m00 mval]. rewrite E.
  destruct (rot_rows r R) as (Q & _). pose proof (Rle_0_sqr (m01 r)). pose proof (Rle_0_sqr (m02 r)). unfold Rsqr in *. assert (-1 <= m00 r <= 1) by (split; nra).
  rewrite Rabs_left by lra. lra.
Qed.
