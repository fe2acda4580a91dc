(** Compositions of poses made in double precision, and the loss near the threshold: C67. *)
From Coq Require Import Reals Psatz ZArith.
From Flocq Require Import Core BinarySingleNaN.
From Verif Require Import Cpp FloatModel FloatSpec NrmSpec Vec RotSpec ScrewSpec FloatProofs NrmProofs DriftModel DriftSpec DriftProofs DriftProofs2 SpinModel SpinSpec SpinProofs SpinProofs2 SpinProofs3 TwistModel TwistSpec TwistProofs TwistProofs2 TwistProofs3.
From Verif Require CoeffProofs DiffProofs.
Local Open Scope R_scope.

Lemma h_tiny l : l <= 2 ^ 100 -> (11 + 7 * l) * h <= u * / 2 ^ 900.
Proof.
  intro L. pose proof h_pos as Hp.
  assert (E : h = / 2 ^ 1075) by (unfold h; change (-1075)%Z with (- (1075))%Z; rewrite bpow_opp; f_equal; rewrite bpow_powerRZ; change 1075%Z with (Z.of_nat 1075); rewrite <- pow_powerRZ; reflexivity).
  assert (B : 11 + 7 * l <= 2 ^ 104) by (change (2 ^ 104) with (2 ^ (4 + 100)); rewrite pow_add; pose proof (pow_R1_Rle 2 100 ltac:(lra)); lra).
  apply Rle_trans with (2 ^ 104 * h); [apply Rmult_le_compat_r; lra|]. rewrite E, u_num.
  assert (P : forall n, 0 < 2 ^ n) by (intro; apply pow_lt; lra).
  replace (2 ^ 1075) with (2 ^ 104 * (2 ^ 71 * 2 ^ 900)) by (rewrite <- !pow_add; reflexivity).
  rewrite !Rinv_mult. rewrite <- Rmult_assoc, Rinv_r, Rmult_1_l by (apply Rgt_not_eq, P).
  apply Rmult_le_compat_r; [apply Rlt_le, Rinv_0_lt_compat, P|]. lra.
Qed.
Lemma made_stands l g : l <= 2 ^ 100 -> pose_made_by_exp l g -> pose_stands_for ((1200 + 4 * l) * u) g.
Proof.
  intros L (w & t & W & T & Lw & Lt & [G0 G1] & R & E & M). pose proof (norm_nonneg (vval w)) as W0. pose proof (norm_nonneg (vval t)) as T0. pose proof u_pos as Up. pose proof h_pos as Hp.
  assert (L9 : 2 ^ 100 <= 2 ^ 490) by (apply Rle_pow; [lra|lia]).
  destruct (se3_exp_near w t _ _ W T ltac:(lra) ltac:(lra) R M) as ((Fm & Rr & D) & Fx & X). unfold pose_stands_for. cbn [fst snd] in *.
  split; [split; [exact Fm|split; [exact Rr|]]|].
  { cbn [fst snd]. eapply Rle_trans; [exact D|]. apply Rmult_le_compat_r; lra. }
  split; [exact Fx|]. split; [|split; [|exact G0]].
  - rewrite E. eapply Rle_trans; [exact X|]. change (bpow radix2 (-1075)) with h.
    assert (I : / Rmax (norm (vval w)) (19 / 10000) <= 527) by (replace 527 with (/ (/ 527)) by field; apply Rinv_le_contravar; [lra|]; eapply Rle_trans; [|apply Rmax_r]; lra).
    pose proof (h_tiny (norm (vval w)) ltac:(lra)) as H.
    apply Rle_trans with (1147 * u * g_length g + u * g_length g).
    + apply Rplus_le_compat; [apply Rmult_le_compat; try lra; [|unfold Rdiv; apply Rmult_le_compat_r; lra]|].
      * apply Rmult_le_pos; [|lra]. unfold Rdiv. pose proof (Rinv_0_lt_compat (Rmax (norm (vval w)) (19 / 10000)) ltac:(eapply Rlt_le_trans; [|apply Rmax_r]; lra)). unfold Rdiv in *. lra.
      * eapply Rle_trans; [exact H|]. apply Rmult_le_compat_l; lra.
    + assert (0 <= g_length g) by lra. assert (0 <= u * g_length g) by (apply Rmult_le_pos; lra). assert (0 <= l * (u * g_length g)) by (apply Rmult_le_pos; lra). lra.
  - rewrite E. eapply Rle_trans; [apply DiffProofs.screw_bound; lra|]. lra.
Qed.
Lemma every_imp {A} (P Q : A -> Prop) x : (forall a, P a -> Q a) -> every P x -> every Q x.
Proof. intro H. induction x as [a|x IHx y IHy|x IHx]; cbn [every]; [apply H|intros [? ?]; split; auto|exact IHx]. Qed.
Lemma composed_poses l x : every (pose_made_by_exp l) x -> l <= 2 ^ 100 -> weight ((1200 + 4 * l) * u) x <= 1 / 10 -> reach x <= 2 ^ 900 ->
  (exists p, pose_of (rmap g_pose x) p) /\
  forall p, pose_of (rmap g_pose x) p ->
  mfinite (frot p) /\ vfinite (ftrans p) /\
  apart (mval (frot p)) (fst (exact_pose (rmap g_exact x))) <= 10 / 9 * bound ((1200 + 4 * l) * u) x /\
  norm (vsub (vval (ftrans p)) (snd (exact_pose (rmap g_exact x)))) <= 2 * weight ((1200 + 4 * l) * u) x * reach x.
Proof. intros E L. apply pose_error. apply (every_imp _ _ _ (fun g => made_stands l g L) E). Qed.

(** ** Loss near the threshold *)
Definition wx0 : f64 := NrmSpec.double 2199854397 (-40).
Definition w0 : fvec := FV wx0 (of_int 0) (of_int 0).
Definition t0 : fvec := FV (of_int 0) (of_int 1) (of_int 0).
Lemma wx0_val : finite wx0 /\ val wx0 = 2199854397 / 1099511627776.
Proof.
  split; [reflexivity|]. rewrite val_sf. replace (B2SF wx0) with (SpecFloat.S754_finite false 4613429048377344 (-61)) by (vm_compute; reflexivity).
  rewrite sf_value. cbn [cond_Zopp Z.opp]. change (bpow radix2 (-61)) with (/ 2305843009213693952). lra.
Qed.
Definition z0 : f64 := fmul wx0 wx0.
Lemma z0_only z : fsquared_norm w0 z -> z = z0.
Proof. intro Z. destruct Z; apply B2SF_inj; vm_compute; reflexivity. Qed.
Lemma z0_root : fsqrt z0 = wx0.
Proof. apply B2SF_inj. vm_compute. reflexivity. Qed.
Lemma z0_large : flt z0 FTINY_SQUARE_ANGLE = false.
Proof. vm_compute. reflexivity. Qed.
Lemma cos0 : 18028012490499 / 1000 <= (1 - cos (val wx0)) * 2 ^ 53 <= 180280124905 / 10.
Proof.
  destruct wx0_val as [_ V]. rewrite V. destruct (CoeffProofs.cos_bounds (2199854397 / 1099511627776) ltac:(lra)) as [A B]. unfold CoeffProofs.cos6 in *. lra.
Qed.
Lemma mag_half r : / 2 <= r < 1 -> mag radix2 r = 0%Z :> Z.
Proof. intros [A B]. apply mag_unique. rewrite Rabs_right by lra. cbn. lra. Qed.
Lemma ulp_half r : / 2 <= r < 1 -> ulp radix2 (FLT_exp (-1074) 53) r = / 2 ^ 53.
Proof.
  intro H. rewrite ulp_neq_0 by lra. unfold cexp. rewrite (mag_half r H). change (bpow radix2 (FLT_exp (-1074) 53 0)) with (/ 9007199254740992). f_equal. lra.
Qed.
Lemma grid k : / 2 <= val k < 1 -> exists m, val k = IZR m * / 2 ^ 53.
Proof.
  intro H. pose proof (generic_format_B2R 53 1024 k) as G. unfold generic_format in G. eexists. etransitivity; [exact G|]. unfold F2R. cbn [Fnum Fexp].
  f_equal. unfold cexp. change (B2R k) with (val k). rewrite (mag_half _ H). change (bpow radix2 (SpecFloat.fexp 53 1024 0)) with (/ 9007199254740992). f_equal. lra.
Qed.
Lemma cosines k : library cos wx0 k -> k = NrmSpec.double (2 ^ 53 - 18028012490) (-53) \/ k = NrmSpec.double (2 ^ 53 - 18028012491) (-53).
Proof.
  unfold library. change (is_finite wx0) with true. cbv iota. intros (F & D & _). change (B2R k) with (val k) in D. change (B2R wx0) with (val wx0) in D. pose proof cos0 as C. rewrite ulp_half in D by (split; lra).
  destruct (grid k) as [m M]. { pose proof (Rabs_def2 _ _ D). lra. }
  rewrite M in D. apply Rabs_def2 in D.
  assert (N : (2 ^ 53 - 18028012492 < m < 2 ^ 53 - 18028012489)%Z).
  { split; apply lt_IZR; rewrite minus_IZR; change (IZR (2 ^ 53)) with 9007199254740992; lra. }
  assert (m = 2 ^ 53 - 18028012490 \/ m = 2 ^ 53 - 18028012491)%Z as [E|E] by lia; [left|right]; rewrite E in M; (apply B2R_inj; [apply is_finite_strict_B2R; change (B2R k) with (val k); rewrite M; apply Rmult_integral_contrapositive; split; [apply not_0_IZR; discriminate|lra]|vm_compute; reflexivity|change (B2R k) with (val k); rewrite M]).
  - change (B2R (NrmSpec.double (2 ^ 53 - 18028012490) (-53))) with (val (NrmSpec.double (2 ^ 53 - 18028012490) (-53))).
    rewrite val_sf. replace (B2SF (NrmSpec.double (2 ^ 53 - 18028012490) (-53))) with (SpecFloat.S754_finite false 9007181226728502 (-53)) by (vm_compute; reflexivity).
    rewrite sf_value. cbn [cond_Zopp]. change (bpow radix2 (-53)) with (/ 9007199254740992). change (2 ^ 53 - 18028012490)%Z with 9007181226728502%Z. f_equal. f_equal. lra.
  - change (B2R (NrmSpec.double (2 ^ 53 - 18028012491) (-53))) with (val (NrmSpec.double (2 ^ 53 - 18028012491) (-53))).
    rewrite val_sf. replace (B2SF (NrmSpec.double (2 ^ 53 - 18028012491) (-53))) with (SpecFloat.S754_finite false 9007181226728501 (-53)) by (vm_compute; reflexivity).
    rewrite sf_value. cbn [cond_Zopp]. change (bpow radix2 (-53)) with (/ 9007199254740992). change (2 ^ 53 - 18028012491)%Z with 9007181226728501%Z. f_equal. f_equal. lra.
Qed.

Lemma b_product k (b := fmul (fsub (of_int 1) k) (fmul (fdivide (of_int 1) wx0) (fdivide (of_int 1) wx0))) (n := fsub (fmul wx0 (of_int 1)) (fmul (of_int 0) (of_int 0))) :
  library cos wx0 k -> finite (fmul b n) /\ 200 * u <= Rabs (val (fmul b n) - (1 - cos (val wx0)) / val wx0).
Proof.
  intro K. subst b n. pose proof cos0 as C. destruct wx0_val as [_ V]. set (y := cos (val wx0)) in *. rewrite V. clearbody y.
  apply cosines in K. destruct K as [-> | ->]; (split; [reflexivity|]); rewrite val_sf.
  - match goal with |- context [B2SF ?x] => replace (B2SF x) with (SpecFloat.S754_finite false 4613427509277256 (-62)) by (vm_compute; reflexivity) end.
    rewrite sf_value. cbn [cond_Zopp]. change (bpow radix2 (-62)) with (/ 4611686018427387904). rewrite u_num, Rabs_left1; lra.
  - match goal with |- context [B2SF ?x] => replace (B2SF x) with (SpecFloat.S754_finite false 4613427509533160 (-62)) by (vm_compute; reflexivity) end.
    rewrite sf_value. cbn [cond_Zopp]. change (bpow radix2 (-62)) with (/ 4611686018427387904). rewrite u_num, Rabs_right; lra.
Qed.
Lemma w0_norm : norm (vval w0) = val wx0.
Proof. destruct wx0_val as [_ V]. apply norm_is; [rewrite V; lra|]. unfold w0, vval, dot. cbn [fx fy fz vx vy vz]. rewrite (proj2 of_int_0). ring. Qed.
Lemma t0_norm : norm (vval t0) = 1.
Proof. apply norm_is; [lra|]. unfold t0, vval, dot. cbn [fx fy fz vx vy vz]. rewrite (proj2 of_int_0), (proj2 of_int_1). ring. Qed.
Lemma precision_lost : exists w t, vfinite w /\ vfinite t /\ norm (vval t) = 1 /\ / 1000 <= norm (vval w) <= 1 / 100 /\
  forall g, fse3_exp w t g -> vfinite (ftrans g) /\ 200 * u <= norm (vsub (vval (ftrans g)) (screw (vval w) (vval t) 1)).
Proof.
  exists w0, t0. destruct wx0_val as [Fx Vx]. destruct of_int_0 as [F0 V0]. destruct of_int_1 as [F1 V1].
  assert (W : vfinite w0) by (repeat split; assumption). assert (T : vfinite t0) by (repeat split; assumption).
  split; [exact W|]. split; [exact T|]. split; [exact t0_norm|]. split; [rewrite w0_norm, Vx; lra|].
  assert (L : norm (vval w0) <= 2 ^ 490) by (rewrite w0_norm, Vx; pose proof (pow_R1_Rle 2 490 ltac:(lra)); lra). assert (T5 : norm (vval t0) <= 2 ^ 500) by (rewrite t0_norm; apply pow_R1_Rle; lra).
  intros g (_ & z & a & b & c & Z & C & X). destruct (exp_translation w0 t0 z a b c _ W T L T5 Z C X) as [F _]. split; [exact F|].
  destruct (coeffs_near w0 z a b c W L Z C) as ((Fa & Fb & Fc) & _).
  apply z0_only in Z. subst z. unfold fexp_diff_coeffs in C. rewrite z0_large, z0_root in C. destruct C as (s & k & _ & K & _ & Eb & _).
  destruct X as (d & D & X). cbv zeta in X. unfold fcross, w0, t0 in X, D. cbn [fx fy fz] in X, D.
  assert (Dz : finite d /\ val d = 0).
  { destruct (mul_zero wx0 (of_int 0) Fx F0 (or_intror V0)) as [G0 U0]. destruct (mul_zero (of_int 0) (of_int 1) F0 F1 (or_introl V0)) as [G1 U1]. destruct (mul_zero (of_int 0) (of_int 0) F0 F0 (or_introl V0)) as [G2 U2].
    destruct D; [destruct (add_zero _ _ G0 G1 (or_introl U0)) as [G3 U3]; destruct (add_zero _ _ G3 G2 (or_intror U2)) as [G4 U4]|destruct (add_zero _ _ G1 G2 (or_introl U1)) as [G3 U3]; destruct (add_zero _ _ G0 G3 (or_introl U0)) as [G4 U4]]; split; try exact G4; lra. }
  destruct Dz as [Fd Vd]. destruct (b_product k K) as [Fp P]. rewrite <- Eb in Fp, P.
  destruct (mul_zero a (of_int 0) Fa F0 (or_intror V0)) as [G1 U1]. destruct (add_zero _ _ G1 Fp (or_introl U1)) as [G2 U2].
  destruct (mul_zero c d Fc Fd (or_intror Vd)) as [G3 U3]. destruct (mul_zero _ (of_int 0) G3 F0 (or_intror V0)) as [G4 U4]. destruct (add_zero _ _ G2 G4 (or_intror U4)) as [G5 U5].
  eapply Rle_trans; [exact P|]. eapply Rle_trans; [|apply (entry_norm (vsub _ _))]. rewrite X. unfold vsub. cbn [vx vy vz vval fx fy fz]. rewrite U5, U4, U2, U1. right. f_equal.
  rewrite screw_coeffs, w0_norm. unfold vadd, vscale, cross, dot, vval, w0, t0. cbn [fx fy fz vx vy vz]. rewrite V0, V1.
  unfold cb. destruct (Req_EM_T (val wx0) 0) as [E|_]; [exfalso; lra|]. unfold wb. field. lra.
Qed.
