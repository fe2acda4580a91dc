(** Brackets as matrix products, and distances, in double precision. *)
From Coq Require Import Reals Lra Lia List.
From Flocq Require Import Core BinarySingleNaN.
From Verif Require Import Cpp FloatModel FloatSpec FloatProofs NrmSpec NrmProofs Vec RotProofs CoeffProofs LieProofs DriftModel DriftSpec DriftProofs LenModel LenSpec LenProofs SpinModel SpinProofs SpinProofs3 TwistModel FpsModel FmjModel FmjProofs2 FstModel FapModel FapProofs FapProofs2 AdjModel AdjSpec AdjProofs.
Import ListNotations.
Local Open Scope R_scope.

Lemma times_zero x : finite x -> exists s, fmul (of_int 0) x = B754_zero s.
Proof. intro F. destruct x as [s|s| |s m e b]; try discriminate F; eexists; reflexivity. Qed.
Lemma add_alike_l x y z : alike x y -> alike (fadd x z) (fadd y z). Proof. intro A. apply alike_add; [exact A|apply alike_refl]. Qed.
Lemma add_alike_r x y z : alike x y -> alike (fadd z x) (fadd z y). Proof. intro A. apply alike_add; [apply alike_refl|exact A]. Qed.
Lemma sum3_first s y z r : fsum3 (B754_zero s) y z r -> alike r (fadd y z).
Proof. intro H. inversion H; [apply add_alike_l, add_zero_l|apply add_zero_l]. Qed.
Lemma sum3_second s x z r : fsum3 x (B754_zero s) z r -> alike r (fadd x z).
Proof. intro H. inversion H; [apply add_alike_l, add_zero_r|apply add_alike_r, add_zero_l]. Qed.
Lemma sum3_third s x y r : fsum3 x y (B754_zero s) r -> alike r (fadd x y).
Proof. intro H. inversion H; [apply add_zero_r|apply add_alike_r, add_zero_r]. Qed.
Lemma matrix_bracket a b r : vfinite b -> fso3_matrix_times a b r -> vboth alike r (fcross a b).
Proof.
  intros (X & Y & Z) (A & B & C). unfold fcross_matrix, fdot in A, B, C. cbn [f00 f01 f02 f10 f11 f12 f20 f21 f22] in A, B, C.
  destruct (times_zero _ X) as [s S], (times_zero _ Y) as [t T], (times_zero _ Z) as [v V]. rewrite S in A. rewrite T in B. rewrite V in C.
  apply sum3_first in A. apply sum3_second in B. apply sum3_third in C. rewrite fmul_neg_l in A, B, C. unfold vboth, fcross. cbn [fx fy fz]. rewrite <- !fadd_neg.
  split; [|split].
  - eapply alike_trans; [exact A|apply add_comm].
  - exact B.
  - eapply alike_trans; [exact C|apply add_comm].
Qed.
Lemma sub_alike x y : alike x y -> (finite (fsub x y) <-> finite x) /\ (finite x -> val (fsub x y) = 0).
Proof. intro A. rewrite <- fadd_neg. apply add_opposites, opposite_alike. rewrite fneg_fneg. exact A. Qed.
Lemma vboth_sym v w : vboth alike v w -> vboth alike w v.
Proof. intros (A & B & C). repeat split; apply alike_sym; assumption. Qed.
Lemma so3_algebra_check a b r : vfinite b -> so3_algebra_agrees a b r -> (r = true <-> vfinite (fcross a b)).
Proof.
  intros F (alt & M & ->). destruct (vboth_sym _ _ (matrix_bracket a b alt F M)) as (X & Y & Z).
  destruct (sub_alike _ _ X) as [PX VX], (sub_alike _ _ Y) as [PY VY], (sub_alike _ _ Z) as [PZ VZ]. split.
  - intro H. apply is_zero_finite, forall3 in H. destruct H as (A & B & C). exact (conj (proj1 PX A) (conj (proj1 PY B) (proj1 PZ C))).
  - intros (FX & FY & FZ). apply is_zero_true. unfold fcoords, fvsub. cbn [fx fy fz]. repeat (apply Forall_cons; [split; [tauto|rewrite ?VX, ?VY, ?VZ by assumption; apply zero_small]|]). apply Forall_nil.
Qed.
Lemma some_fmvec a v : exists w, fmvec a v w.
Proof.
  destruct (TwistProofs3.some_dot (f00 a) (f01 a) (f02 a) (fx v) (fy v) (fz v)) as [x X], (TwistProofs3.some_dot (f10 a) (f11 a) (f12 a) (fx v) (fy v) (fz v)) as [y Y], (TwistProofs3.some_dot (f20 a) (f21 a) (f22 a) (fx v) (fy v) (fz v)) as [z Z].
  exists (FV x y z). repeat split; assumption.
Qed.

(** ** A bracket of one with itself that is NaN *)
Lemma self_nan : exists a, vfinite a /\ fz (fcross a a) = B754_nan /\ so3_anticommutes a a = false.
Proof.
  exists (FV (NrmSpec.double 1 600) (NrmSpec.double 1 600) (of_int 0)). split; [repeat split; reflexivity|].
  assert (E : fmul (NrmSpec.double 1 600) (NrmSpec.double 1 600) = B754_infinity false).
  { destruct long_case as [(F & _) B]. cbn [fx] in F, B. apply square_big; assumption. }
  assert (N : fz (fcross (FV (NrmSpec.double 1 600) (NrmSpec.double 1 600) (of_int 0)) (FV (NrmSpec.double 1 600) (NrmSpec.double 1 600) (of_int 0))) = B754_nan) by (unfold fcross; cbn [fx fy fz]; rewrite E; reflexivity).
  split; [exact N|]. apply Bool.not_true_is_false. intro T. apply so3_check in T. destruct T as (_ & _ & T). rewrite N in T. discriminate T.
Qed.

(** ** Distances *)
Lemma vsub_mirror v w : vboth opposite (fvsub v w) (fvsub w v).
Proof. repeat split; apply sub_opposite. Qed.
Lemma opposite_square x y : opposite x y -> fmul x x = fmul y y.
Proof.
  intro O. apply opposite_alike, alike_cases in O. destruct O as [->|(s & t & -> & E)]; [rewrite fmul_neg_l, fmul_neg_r, fneg_fneg; reflexivity|].
  destruct y as [r|r| |r m e b]; try discriminate E. destruct s, r; reflexivity.
Qed.
Lemma distance_sym a b d : fse3_distance a b d <-> fse3_distance b a d.
Proof.
  unfold fse3_distance, fnorm, fsquared_norm, fdot. destruct (vsub_mirror (ftrans a) (ftrans b)) as (X & Y & Z). rewrite (opposite_square _ _ X), (opposite_square _ _ Y), (opposite_square _ _ Z). reflexivity.
Qed.
Lemma fsqrt_zero (z : f64) : finite z -> val z = 0 -> finite (fsqrt z) /\ val (fsqrt z) = 0.
Proof. intros F V. destruct (fsqrt_val z F) as [F' V']; [lra|]. rewrite V, sqrt_0, rd_0 in V'. auto. Qed.
Lemma some_distance a b : exists d, fse3_distance a b d.
Proof. destruct (TwistProofs3.some_dot (fx (fvsub (ftrans a) (ftrans b))) (fy (fvsub (ftrans a) (ftrans b))) (fz (fvsub (ftrans a) (ftrans b))) (fx (fvsub (ftrans a) (ftrans b))) (fy (fvsub (ftrans a) (ftrans b))) (fz (fvsub (ftrans a) (ftrans b)))) as [z Z]. exists (fsqrt z), z. auto. Qed.
Lemma distance_same a b d : vfinite (ftrans a) -> vfinite (ftrans b) -> vval (ftrans a) = vval (ftrans b) -> fse3_distance a b d -> finite d /\ val d = 0.
Proof.
  intros (X & Y & Z) (X' & Y' & Z') E (z & S & ->). unfold vval in E. injection E as EX EY EZ.
  assert (G : forall x y, finite x -> finite y -> val x = val y -> finite (fsub x y) /\ val (fsub x y) = 0).
  { intros x y A B C. destruct (sub_alike x y) as [P V]; [right; auto|]. split; [apply P, A|apply V, A]. }
  destruct (G _ _ X X' EX) as [A A0], (G _ _ Y Y' EY) as [B B0], (G _ _ Z Z' EZ) as [C C0].
  destruct (TwistProofs3.zero_dot _ _ _ _ _ _ z A B C A B C A0 B0 C0 S) as [F V]. apply fsqrt_zero; assumption.
Qed.
Lemma sub_near x y k : finite x -> finite y -> Rabs (val x) <= 2 ^ 489 -> Rabs (val y) <= 2 ^ 489 -> k = val x - val y -> exists e, Rabs e <= u /\ finite (fsub x y) /\ val (fsub x y) = k * (1 + e).
Proof.
  intros X Y A B ->. destruct (rd_minus (val x) (val y) (val_fmt x) (val_fmt y)) as (e & E & V). exists e.
  destruct (fsub_val x y X Y) as [F W].
  - apply no_overflow. destruct big_1000. assert (2 ^ 489 <= 2 ^ 997) by (apply Rle_pow; [lra|lia]). assert (2 ^ 1000 = 8 * 2 ^ 997) by (change 1000%nat with (3 + 997)%nat; rewrite pow_add; lra).
    unfold Rminus. pose proof (Rabs_triang (val x) (- val y)) as T. rewrite Rabs_Ropp in T. lra.
  - pose proof tight_lt. split; [lra|]. split; [exact F|]. rewrite W. exact V.
Qed.
Lemma scaled_norm a b c e f g : Rabs e <= u -> Rabs f <= u -> Rabs g <= u ->
  norm (vsub (V3 (a * (1 + e)) (b * (1 + f)) (c * (1 + g))) (V3 a b c)) <= u * norm (V3 a b c).
Proof.
  intros E F G. pose proof u_pos. apply norm_le_sqr; [apply Rmult_le_pos; [lra|apply norm_nonneg]|].
  replace (u * norm (V3 a b c) * (u * norm (V3 a b c))) with (u * u * (norm (V3 a b c) * norm (V3 a b c))) by ring. rewrite norm_sqr.
  unfold norm2, dot, vsub, vadd, vneg, vscale. cbn [vx vy vz]. apply Rabs_le_inv in E, F, G.
  assert (S : forall x, - u <= x <= u -> x * x <= u * u) by (intros; nra). pose proof (S e E). pose proof (S f F). pose proof (S g G).
  assert (K : forall p x, x * x <= u * u -> p * x * (p * x) <= u * u * (p * p)) by (intros p x Q; replace (p * x * (p * x)) with (x * x * (p * p)) by ring; apply Rmult_le_compat_r; [nra|exact Q]).
  pose proof (K a e). pose proof (K b f). pose proof (K c g). nra.
Qed.
Lemma h_480 : 4 * h <= u / 1000 * (/ 2 ^ 480 * / 2 ^ 480).
Proof.
  rewrite u_num. assert (E : h = / 2 ^ 115 * (/ 2 ^ 480 * / 2 ^ 480)).
  { unfold h. rewrite <- (bpow_pow 115), <- (bpow_pow 480), <- !bpow_opp, <- !bpow_plus. reflexivity. }
  rewrite E. assert (P : 0 < / 2 ^ 480 * / 2 ^ 480) by (apply Rmult_lt_0_compat; apply Rinv_0_lt_compat, pow_lt; lra). assert (Q : 4 * / 2 ^ 115 <= / 9007199254740992 / 1000).
  { replace (/ 2 ^ 115) with (/ 41538374868278621028243970633760768) by (f_equal; cbn; lra). lra. }
  replace (4 * (/ 2 ^ 115 * (/ 2 ^ 480 * / 2 ^ 480))) with (4 * / 2 ^ 115 * (/ 2 ^ 480 * / 2 ^ 480)) by ring. apply Rmult_le_compat_r; [lra|exact Q].
Qed.
Lemma within_norm v k : norm (vval v) <= k -> vwithin k v.
Proof.
  intro N. assert (K : forall x, x * x <= norm2 (vval v) -> Rabs x <= k).
  { intros x H. eapply Rle_trans; [|exact N]. rewrite <- norm_sqr in H. apply Rsqr_incr_0; [|apply Rabs_pos|apply norm_nonneg]. rewrite <- Rsqr_abs. exact H. }
  pose proof (Rle_0_sqr (val (fx v))). pose proof (Rle_0_sqr (val (fy v))). pose proof (Rle_0_sqr (val (fz v))). unfold Rsqr in *.
  repeat split; apply K; unfold norm2, dot, vval; cbn [vx vy vz]; lra.
Qed.
Lemma distance_near a b d : vfinite (ftrans a) -> vfinite (ftrans b) -> norm (vval (ftrans a)) <= 2 ^ 488 -> norm (vval (ftrans b)) <= 2 ^ 488 -> / 2 ^ 480 <= norm (vsub (vval (ftrans a)) (vval (ftrans b))) ->
  fse3_distance a b d -> finite d /\ Rabs (val d - norm (vsub (vval (ftrans a)) (vval (ftrans b)))) <= 4 * u * norm (vsub (vval (ftrans a)) (vval (ftrans b))).
Proof.
  intros (X & Y & Z) (X' & Y' & Z') NA NB L (s & S & ->). assert (K9 : 2 ^ 489 = 2 * 2 ^ 488) by (change 489%nat with (1 + 488)%nat; rewrite pow_add; lra). assert (K0 : 2 ^ 490 = 4 * 2 ^ 488) by (change 490%nat with (2 + 488)%nat; rewrite pow_add; lra). assert (O8 : 1 <= 2 ^ 488) by (apply pow_R1_Rle; lra).
  destruct (within_norm (ftrans a) (2 ^ 489)) as (x & y & z); [lra|]. destruct (within_norm (ftrans b) (2 ^ 489)) as (x' & y' & z'); [lra|]. set (v := vsub (vval (ftrans a)) (vval (ftrans b))) in *.
  destruct (sub_near _ _ (vx v) X X' x x') as (e & E & FE & VE); [unfold v, vval; destruct (ftrans a), (ftrans b); reflexivity|].
  destruct (sub_near _ _ (vy v) Y Y' y y') as (f & F & FF & VF); [unfold v, vval; destruct (ftrans a), (ftrans b); reflexivity|].
  destruct (sub_near _ _ (vz v) Z Z' z z') as (g & G & FG & VG); [unfold v, vval; destruct (ftrans a), (ftrans b); reflexivity|].
  set (w := fvsub (ftrans a) (ftrans b)) in *.
  assert (W : vval w = V3 (vx v * (1 + e)) (vy v * (1 + f)) (vz v * (1 + g))) by (unfold vval, w, fvsub; cbn [fx fy fz]; rewrite VE, VF, VG; reflexivity).
  assert (FW : vfinite w) by (repeat split; assumption).
  assert (D : norm (vsub (vval w) v) <= u * norm v) by (rewrite W; destruct v as [p q r]; apply scaled_norm; assumption).
  pose proof (norm_near (vval w) v) as N1. assert (N2 : norm v <= norm (vval w) + u * norm v). { eapply Rle_trans; [apply (norm_near v (vval w))|]. rewrite norm_vsub_sym. lra. }
  assert (B : norm v <= 2 * 2 ^ 488). { unfold v. pose proof (norm_triangle (vval (ftrans a)) (vneg (vval (ftrans b)))) as T. rewrite norm_neg in T. replace (vsub (vval (ftrans a)) (vval (ftrans b))) with (vadd (vval (ftrans a)) (vneg (vval (ftrans b)))) by (destruct (vval (ftrans a)), (vval (ftrans b)); vring). lra. }
  clearbody v w. pose proof u_pos as U0. pose proof u_num as U. assert (I : 0 < / 2 ^ 480) by (apply Rinv_0_lt_compat, pow_lt; lra). set (t := norm v) in *. set (r := norm (vval w)) in *.
  assert (R1 : Rabs (r - t) <= u * t) by (apply Rabs_le; lra).
  destruct (squared_near w s FW) as (FS & PS & ES); [fold r; rewrite K0; assert (u * t <= / 2 * t) by (apply Rmult_le_compat_r; [apply norm_nonneg|rewrite U; lra]); lra|exact S|]. fold r in ES.
  pose proof h_480 as H4. assert (TT : / 2 ^ 480 * / 2 ^ 480 <= t * t) by (apply Rmult_le_compat; lra). assert (RT : 999 / 1000 * t <= r) by (assert (u * t <= / 1000 * t) by (apply Rmult_le_compat_r; [apply norm_nonneg|rewrite U; lra]); lra). assert (RR : 99 / 100 * (t * t) <= r * r). { assert (999 / 1000 * t * (999 / 1000 * t) <= r * r) by (apply Rmult_le_compat; lra). nra. }
  assert (ES' : Rabs (val s - r * r) <= 302 / 100 * u * (r * r)). { eapply Rle_trans; [exact ES|]. assert (u / 1000 * (/ 2 ^ 480 * / 2 ^ 480) <= u / 1000 * (t * t)) by (apply Rmult_le_compat_l; lra). assert (u / 1000 * (99 / 100 * (t * t)) <= u / 1000 * (r * r)) by (apply Rmult_le_compat_l; lra). nra. }
  pose proof (sqrt_near (val s) r (302 / 100 * u) ltac:(lra) ltac:(rewrite U; lra) ES') as Q. destruct (fsqrt_val s FS PS) as [FD VD]. split; [exact FD|].
  assert (RD : exists k, Rabs k <= u /\ rd (sqrt (val s)) = sqrt (val s) * (1 + k)).
  { destruct (rd_tight (sqrt (val s))) as (k & Hk & Ek); [|pose proof tight_lt; exists k; split; [lra|exact Ek]]. rewrite Rabs_right by (apply Rle_ge, sqrt_pos). apply Rabs_le_inv in Q.
    apply Rle_trans with (/ 2 ^ 481); [rewrite <- (bpow_pow 481), <- bpow_opp; apply bpow_le; lia|]. assert (/ 2 ^ 480 = 2 * / 2 ^ 481) by (change 481%nat with (1 + 480)%nat; rewrite pow_add, Rinv_mult; lra).
    assert (51 / 100 * (302 / 100 * u) * r <= / 10 * r) by (apply Rmult_le_compat_r; [lra|rewrite U; lra]). lra. }
  destruct RD as (k & Hk & Ek). rewrite VD, Ek. set (q := sqrt (val s)) in *. clearbody q r t. apply Rabs_le_inv in Q, R1, Hk.
  assert (A1 : Rabs (q - t) <= 255 / 100 * (u * t)). { assert (51 / 100 * (302 / 100 * u) * r <= 51 / 100 * (302 / 100 * u) * (100001 / 100000 * t)) by (apply Rmult_le_compat_l; [lra|]; assert (u * t <= / 100000 * t) by (apply Rmult_le_compat_r; [lra|rewrite U; lra]); lra). assert (0 <= u * t) by nra. apply Rabs_le. lra. }
  assert (A2 : Rabs (q * k) <= 101 / 100 * (u * t)). { rewrite Rabs_mult. assert (Rabs k <= u) by (apply Rabs_le; lra). assert (u * t <= / 1000 * t) by (apply Rmult_le_compat_r; [lra|rewrite U; lra]). apply Rabs_le_inv in A1. assert (Rabs q <= 101 / 100 * t) by (apply Rabs_le; lra).
    apply Rle_trans with (101 / 100 * t * u); [apply Rmult_le_compat; try apply Rabs_pos; lra|lra]. }
  replace (q * (1 + k) - t) with ((q - t) + q * k) by ring. eapply Rle_trans; [apply Rabs_triang|]. assert (0 <= u * t) by nra. lra.
Qed.
(** Differences too small to square. *)
Lemma distance_tiny a b d : vfinite (ftrans a) -> vfinite (ftrans b) ->
  Rabs (val (fx (ftrans a)) - val (fx (ftrans b))) <= / 2 ^ 538 -> Rabs (val (fy (ftrans a)) - val (fy (ftrans b))) <= / 2 ^ 538 -> Rabs (val (fz (ftrans a)) - val (fz (ftrans b))) <= / 2 ^ 538 ->
  fse3_distance a b d -> finite d /\ val d = 0.
Proof.
  intros (X & Y & Z) (X' & Y' & Z') x y z (s & S & ->). assert (I : 0 < / 2 ^ 538 <= 1) by (split; [apply Rinv_0_lt_compat, pow_lt; lra|rewrite <- Rinv_1; apply Rinv_le_contravar; [lra|apply pow_R1_Rle; lra]]).
  assert (H : / 2 ^ 538 * / 2 ^ 538 <= h) by (unfold h; rewrite <- (bpow_pow 538), <- !bpow_opp, <- bpow_plus; apply bpow_le; lia).
  assert (FM : fmt (/ 2 ^ 538)) by (rewrite <- (bpow_pow 538), <- bpow_opp; apply generic_format_bpow; unfold FLT_exp; lia).
  assert (G : forall p q, finite p -> finite q -> Rabs (val p - val q) <= / 2 ^ 538 -> finite (fmul (fsub p q) (fsub p q)) /\ val (fmul (fsub p q) (fsub p q)) = 0).
  { intros p q P Q B. destruct (fsub_val p q P Q) as [F V]; [apply no_overflow; destruct big_1000; lra|].
    assert (B' : Rabs (val (fsub p q)) <= / 2 ^ 538). { rewrite V, <- rd_abs, <- (rd_id _ FM). apply rd_le, B. }
    assert (SQ : 0 <= val (fsub p q) * val (fsub p q) <= h). { pose proof (Rle_0_sqr (val (fsub p q))) as N. unfold Rsqr in N. split; [exact N|]. rewrite <- (Rabs_right (_ * _)) by lra. rewrite Rabs_mult. eapply Rle_trans; [|exact H]. apply Rmult_le_compat; try apply Rabs_pos; exact B'. }
    destruct (fmul_val (fsub p q) (fsub p q) F F) as [F' V']; [apply no_overflow; pose proof h_1; destruct big_1000; rewrite Rabs_right; lra|]. split; [exact F'|]. rewrite V'. apply rd_tiny, SQ. }
  destruct (G _ _ X X' x) as [A A0], (G _ _ Y Y' y) as [B B0], (G _ _ Z Z' z) as [C C0]. unfold fsquared_norm, fdot in S. cbn [fvsub fx fy fz] in S.
  destruct (zero_cases _ A A0) as [i EA], (zero_cases _ B B0) as [j EB], (zero_cases _ C C0) as [k EC]. rewrite EA, EB, EC in S. apply fsqrt_zero; inversion S; destruct i, j, k; reflexivity.
Qed.
Lemma distance_lost : exists a b, vfinite (ftrans a) /\ vfinite (ftrans b) /\ vval (ftrans a) <> vval (ftrans b) /\ forall d, fse3_distance a b d -> finite d /\ val d = 0.
Proof.
  exists (FP fmid (FV (NrmSpec.double 1 (-600)) (of_int 0) (of_int 0))), (FP fmid (FV (of_int 0) (of_int 0) (of_int 0))). cbn [ftrans].
  destruct (of_small 0) as [F0 V0]; [cbn; lia|]. change (IZR 0) with 0 in V0. assert (V : val (NrmSpec.double 1 (-600)) = / 2 ^ 600).
  { rewrite <- (bpow_pow 600), <- bpow_opp, FloatProofs.val_sf. replace (B2SF (NrmSpec.double 1 (-600))) with (SpecFloat.S754_finite false 4503599627370496 (-652)) by (vm_compute; reflexivity).
    cbn [SF2R cond_Zopp]. unfold F2R. cbn [Fnum Fexp]. change 4503599627370496%Z with (radix2 ^ 52)%Z. rewrite IZR_Zpower by lia. rewrite <- bpow_plus. reflexivity. } assert (I : 0 < / 2 ^ 600 <= / 2 ^ 538).
  { split; [apply Rinv_0_lt_compat, pow_lt; lra|]. apply Rinv_le_contravar; [apply pow_lt; lra|apply Rle_pow; [lra|lia]]. }
  split; [repeat split; reflexivity|]. split; [repeat split; reflexivity|]. split.
  - unfold vval. cbn [fx fy fz]. rewrite V, V0. intro E. injection E as E. lra.
  - intros d D. apply distance_tiny in D; [exact D|repeat split; reflexivity|repeat split; reflexivity| | |]; cbn [ftrans fx fy fz]; rewrite ?V, ?V0, Rminus_0_r; [rewrite Rabs_right; lra|rewrite Rabs_R0; lra|rewrite Rabs_R0; lra].
Qed.
(** Differences too big to square. *)
Lemma sum3_of a b c r : fsum3 a b c r -> fsum_of [a; b; c] r.
Proof.
  intro H. inversion H; [apply (sum_both _ [a; b] [c]); [reflexivity| |apply sum_one]|apply (sum_both _ [a] [b; c]); [reflexivity|apply sum_one|]];
    [apply (sum_both _ [a] [b])|apply (sum_both _ [b] [c])]; try reflexivity; apply sum_one.
Qed.
Lemma distance_huge a b d : vfinite (ftrans a) -> vfinite (ftrans b) -> vwithin (2 ^ 1000) (ftrans a) -> vwithin (2 ^ 1000) (ftrans b) ->
  2 ^ 512 <= Rabs (val (fx (ftrans a)) - val (fx (ftrans b))) \/ 2 ^ 512 <= Rabs (val (fy (ftrans a)) - val (fy (ftrans b))) \/ 2 ^ 512 <= Rabs (val (fz (ftrans a)) - val (fz (ftrans b))) ->
  fse3_distance a b d -> d = B754_infinity false.
Proof.
  intros (X & Y & Z) (X' & Y' & Z') (x & y & z) (x' & y' & z') H (s & S & ->).
  assert (FM : fmt (2 ^ 512)) by (rewrite <- (bpow_pow 512); apply generic_format_bpow; unfold FLT_exp; lia).
  assert (G : forall p q, finite p -> finite q -> Rabs (val p) <= 2 ^ 1000 -> Rabs (val q) <= 2 ^ 1000 -> finite (fsub p q) /\ (2 ^ 512 <= Rabs (val p - val q) -> 2 ^ 512 <= Rabs (val (fsub p q)))).
  { intros p q P Q p' q'. destruct (fsub_val p q P Q) as [F V].
    - apply no_overflow. destruct big_1000. unfold Rminus. pose proof (Rabs_triang (val p) (- val q)) as T. rewrite Rabs_Ropp in T. lra.
    - split; [exact F|]. intro B. rewrite V, <- rd_abs, <- (rd_id _ FM). apply rd_le, B. }
  destruct (G _ _ X X' x x') as [A KA], (G _ _ Y Y' y y') as [B KB], (G _ _ Z Z' z z') as [C KC]. unfold fsquared_norm, fdot in S. cbn [fvsub fx fy fz] in S. apply sum3_of in S.
  rewrite (squares_big [fsub (fx (ftrans a)) (fx (ftrans b)); fsub (fy (ftrans a)) (fy (ftrans b)); fsub (fz (ftrans a)) (fz (ftrans b))] s); [reflexivity|exact S|repeat (apply Forall_cons; [assumption|]); apply Forall_nil|].
  destruct H as [H|[H|H]]; [apply Exists_cons_hd, KA, H|apply Exists_cons_tl, Exists_cons_hd, KB, H|apply Exists_cons_tl, Exists_cons_tl, Exists_cons_hd, KC, H].
Qed.
