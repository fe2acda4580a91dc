(** Errors of composing and inverting moving poses, in units. *)
From Coq Require Import Reals Lra Lia.
From Flocq Require Import Core BinarySingleNaN.
From Verif Require Import Cpp FloatModel FloatSpec FloatProofs NrmSpec NrmProofs Vec RotSpec GeomModel RotProofs LieProofs CoeffProofs DriftModel DriftSpec DriftProofs SpinModel SpinSpec SpinProofs3 TwistModel FdcSpec FdcProofs2 FtsModel FtsSpec FtsProofs FpsModel FpsSpec FpsProofs FtrModel FtrSpec FtrProofs FtrProofs2 FtrProofs3 FmjModel FmjSpec FmjProofs.
Local Open Scope R_scope.

Lemma near_neg X n b p v w : near_v X n b p v w -> near_v X n b p (fvneg v) (vneg w).
Proof. intros (D & N). split; [apply neg_within; exact D|rewrite norm_neg; exact N]. Qed.
Lemma fvsub_neg v w : fvsub v w = fvadd v (fvneg w).
Proof. unfold fvsub, fvadd, fvneg. cbn [fx fy fz]. rewrite !fadd_neg. reflexivity. Qed.
Lemma near_difference X n b p b' p' v w v0 w0 : error_unit X -> size_unit n -> moderate b -> moderate p -> moderate b' -> moderate p' -> near_v X n b p v v0 -> near_v X n b' p' w w0 ->
  near_v X n (b + b' + (p + p' + (b + b') / 10 ^ 5) / 100) (p + p') (fvsub v w) (vsub v0 w0).
Proof.
  intros EX SN B P B' P' V W. rewrite fvsub_neg. replace (vsub v0 w0) with (vadd v0 (vneg w0)) by (destruct v0, w0; vring). apply near_sum; auto. apply near_neg, W.
Qed.
(** The same with what is checked last. *)
Lemma near_cross' X n n' b p b' p' v w v0 w0 : error_unit X -> size_unit n -> size_unit n' -> size_unit (n * n') -> near_v X n b p v v0 -> near_v X n' b' p' w w0 -> moderate b -> moderate p -> moderate b' -> moderate p' ->
  near_v X (n * n') (b * (p' + b' / 10 ^ 5) + p * b' + 35 / 1000 * ((p + b / 10 ^ 5) * (p' + b' / 10 ^ 5)) + / 10 ^ 3) (p * p') (fcross v w) (cross v0 w0).
Proof. intros. apply near_cross; assumption. Qed.
Lemma near_sum' X n b p b' p' v w v0 w0 : error_unit X -> size_unit n -> near_v X n b p v v0 -> near_v X n b' p' w w0 -> moderate b -> moderate p -> moderate b' -> moderate p' ->
  near_v X n (b + b' + (p + p' + (b + b') / 10 ^ 5) / 100) (p + p') (fvadd v w) (vadd v0 w0).
Proof. intros. apply near_sum; assumption. Qed.
Lemma near_difference' X n b p b' p' v w v0 w0 : error_unit X -> size_unit n -> near_v X n b p v v0 -> near_v X n b' p' w w0 -> moderate b -> moderate p -> moderate b' -> moderate p' ->
  near_v X n (b + b' + (p + p' + (b + b') / 10 ^ 5) / 100) (p + p') (fvsub v w) (vsub v0 w0).
Proof. intros. apply near_difference; assumption. Qed.
Lemma near_is X n b p v w n' w' : n = n' -> w = w' -> near_v X n b p v w -> near_v X n' b p v w'.
Proof. intros -> ->. trivial. Qed.
Lemma stands_trans e m r : stands_for e (m, r) -> stands_for e (fmtrans m, mtrans r).
Proof.
  intros ((? & ? & ? & ? & ? & ? & ? & ? & ?) & R & A). split; [repeat split; assumption|]. split; [apply rot_mtrans, R|]. cbn [fst snd] in *. change (mval (fmtrans m)) with (mtrans (mval m)). rewrite apart_mtrans. exact A.
Qed.
Lemma stands_le e e' m : stands_for e m -> e <= e' -> stands_for e' m.
Proof. intros (F & R & A) L. split; [exact F|]. split; [exact R|]. lra. Qed.
Lemma moderate_1 : moderate 1. Proof. unfold moderate. lra. Qed.

(** The units. *)
Definition units (m b : R) : Prop := size_unit m /\ size_unit (m * m) /\ size_unit b /\ size_unit (b * m) /\ size_unit (b * (m * m)).
Lemma usual_units e m b : usual e m b -> error_unit (e + 100 * u) /\ units m b.
Proof.
  intros (E0 & E1 & (M0 & M1) & B0 & B1). split; [split; lra|].
  assert (Z : forall k : nat, 0 < 2 ^ k) by (intro; apply pow_lt; lra). assert (I : forall k : nat, 0 < / 2 ^ k) by (intro; apply Rinv_0_lt_compat, Z).
  assert (LO : forall j k x y, / 2 ^ j <= x -> / 2 ^ k <= y -> / 2 ^ (j + k) <= x * y) by (intros j k x y X Y; rewrite pow_add, Rinv_mult; pose proof (I j); pose proof (I k); apply Rmult_le_compat; lra).
  assert (HI : forall j k x y, 0 < x <= 2 ^ j -> 0 < y <= 2 ^ k -> 0 < x * y <= 2 ^ (j + k)) by (intros j k x y X Y; rewrite pow_add; split; [apply Rmult_lt_0_compat; lra|apply Rmult_le_compat; lra]).
  assert (D : forall j, (j <= 400)%nat -> / 2 ^ 400 <= / 2 ^ j) by (intros; apply Rinv_le_contravar; [apply Z|apply Rle_pow; [lra|assumption]]). assert (U : forall j, (j <= 700)%nat -> 2 ^ j <= 2 ^ 700) by (intros; apply Rle_pow; [lra|assumption]).
  pose proof (I 100%nat) as I1. pose proof (LO _ _ _ _ M0 M0) as L1. pose proof (LO _ _ _ _ B0 M0) as L2. pose proof (LO _ _ _ _ B0 L1) as L3. pose proof (HI 100%nat 100%nat m m ltac:(lra) ltac:(lra)) as H1. pose proof (HI 200%nat 100%nat b m ltac:(lra) ltac:(lra)) as H2. pose proof (HI _ _ b (m * m) (conj (Rlt_le_trans _ _ _ I1 B0) B1) H1) as H3.
  cbn [Nat.add] in *. unfold units, size_unit. repeat split; eapply Rle_trans; first [eassumption|apply D|apply U|apply (proj2 H1)|apply (proj2 H2)|apply (proj2 H3)|idtac]; first [lia|eassumption|apply U; lia|idtac].
Qed.

Section Units.
Variables (X m b : R).
Hypothesis (EX : error_unit X).
Hypothesis (UN : units m b).
Definition near_ride (a b0 p0 b1 p1 b2 p2 c1 q1 c2 q2 : R) (j : frjet) (x : ride) : Prop :=
  stands_for (a * X) (frot (rf j), facing x) /\ near_v X b b0 p0 (ftrans (rf j)) (spot x) /\
  near_v X m b1 p1 (frot_part (rd1 j)) (swing x) /\ near_v X (m * m) b2 p2 (frot_part (rd2 j)) (swing' x) /\
  near_v X (b * m) c1 q1 (ftrans_part (rd1 j)) (drive x) /\ near_v X (b * (m * m)) c2 q2 (ftrans_part (rd2 j)) (drive' x).
(** The adjoint, with bounds for what comes about on the way. *)
Lemma near_adjoint n a t0 s0 br pr bv pv B C D g r t alg w v res : size_unit n -> size_unit (b * n) -> 0 <= a <= 100 -> moderate t0 -> moderate s0 -> moderate br -> moderate pr -> moderate bv -> moderate pv ->
  moderate B -> moderate C -> moderate D -> moderate (s0 * pr) ->
  stands_for (a * X) (frot g, r) -> near_v X b t0 s0 (ftrans g) t -> near_v X n br pr (frot_part alg) w -> near_v X (b * n) bv pv (ftrans_part alg) v -> fadjoint_times g alg res ->
  (a + / 10) * (pr + br / 10 ^ 5) + br + / 10 ^ 3 <= B -> t0 * (pr + B / 10 ^ 5) + s0 * B + 35 / 1000 * ((s0 + t0 / 10 ^ 5) * (pr + B / 10 ^ 5)) + / 10 ^ 3 <= C -> (a + / 10) * (pv + bv / 10 ^ 5) + bv + / 10 ^ 3 <= D ->
  near_v X n B pr (frot_part res) (mvec r w) /\ near_v X (b * n) (C + D + (s0 * pr + pv + (C + D) / 10 ^ 5) / 100) (s0 * pr + pv) (ftrans_part res) (vadd (cross t (mvec r w)) (mvec r v)).
Proof.
  intros SN SB A T0 S0 BR PR BV PV MB MC MD MS R T W V (ra & wa & F1 & F2 & ->) LB LC LD. cbn [frot_part ftrans_part].
  assert (N1 : near_v X n B pr ra (mvec r w)) by (eapply near_v_le; [exact EX|exact SN|exact LB|apply Rle_refl|exact (near_rotated X n a br pr _ r _ w ra EX SN A BR PR R W F1)]).
  assert (N2 : near_v X (b * n) C (s0 * pr) (fcross (ftrans g) ra) (cross t (mvec r w))).
  { destruct UN as (_ & _ & UB & _). eapply near_v_le; [exact EX|exact SB|exact LC|apply Rle_refl|]. exact (near_cross X b n t0 s0 B pr _ _ t (mvec r w) EX UB SN SB T0 S0 MB PR T N1). }
  assert (N3 : near_v X (b * n) D pv wa (mvec r v)) by (eapply near_v_le; [exact EX|exact SB|exact LD|apply Rle_refl|exact (near_rotated X (b * n) a bv pv _ r _ v wa EX SB A BV PV R V F2)]).
  split; [exact N1|]. exact (near_sum X (b * n) C (s0 * pr) D pv _ _ _ _ EX SB MC MS MD PV N2 N3).
Qed.
Lemma near_inverse_pose a t0 s0 g r t i : 0 <= a <= 100 -> moderate t0 -> moderate s0 -> stands_for (a * X) (frot g, r) -> near_v X b t0 s0 (ftrans g) t -> fpose_inverse g i ->
  stands_for (a * X) (frot i, mtrans r) /\ near_v X b ((a + / 10) * (s0 + t0 / 10 ^ 5) + t0 + / 10 ^ 3) s0 (ftrans i) (vneg (mvec (mtrans r) t)).
Proof.
  intros A T0 S0 R T (E & V). destruct UN as (_ & _ & UB & _). split; [rewrite E; apply stands_trans, R|]. rewrite <- mvec_vneg. exact (near_rotated X b a t0 s0 _ _ _ _ _ EX UB A T0 S0 (stands_trans _ _ _ R) (near_neg _ _ _ _ _ _ T) V).
Qed.
Lemma near_product_pose a d bs ps bt pt g r s h q t c : 0 <= a <= 100 -> 0 <= d <= 100 -> moderate bs -> moderate ps -> moderate bt -> moderate pt -> moderate ((a + / 10) * (pt + bt / 10 ^ 5) + bt + / 10 ^ 3) ->
  stands_for (a * X) (frot g, r) -> near_v X b bs ps (ftrans g) s -> stands_for (d * X) (frot h, q) -> near_v X b bt pt (ftrans h) t -> fpose_mul g h c ->
  stands_for ((a + d + a * d / 10 ^ 5 + 11 / 100) * X) (frot c, mmul r q) /\
  near_v X b (((a + / 10) * (pt + bt / 10 ^ 5) + bt + / 10 ^ 3) + bs + (pt + ps + (((a + / 10) * (pt + bt / 10 ^ 5) + bt + / 10 ^ 3) + bs) / 10 ^ 5) / 100) (pt + ps) (ftrans c) (vadd (mvec r t) s).
Proof.
  intros A D BS PS BT PT MB R S Q T (M & w & V & E). destruct UN as (_ & _ & UB & _). pose proof EX as (E1 & E2). pose proof u_pos as Up. split.
  - assert (AX : 0 <= a * X <= 100 * / 10 ^ 5) by (split; [apply Rmult_le_pos; lra|apply Rmult_le_compat; lra]). assert (DX : 0 <= d * X <= 100 * / 10 ^ 5) by (split; [apply Rmult_le_pos; lra|apply Rmult_le_compat; lra]).
    eapply stands_le; [exact (product_near _ _ _ _ _ _ _ R Q ltac:(lra) ltac:(lra) M)|]. assert (0 <= a * d) by (apply Rmult_le_pos; lra).
    assert (X * X <= / 10 ^ 5 * X) by (apply Rmult_le_compat_r; lra). assert (a * d * (X * X) <= a * d * (/ 10 ^ 5 * X)) by (apply Rmult_le_compat_l; lra).
    replace (a * X * (d * X)) with (a * d * (X * X)) by ring. replace ((a + d + a * d / 10 ^ 5 + 11 / 100) * X) with (a * X + d * X + a * d * (/ 10 ^ 5 * X) + 11 / 100 * X) by (unfold Rdiv; ring). lra.
  - rewrite E. exact (near_sum X b _ pt bs ps _ _ _ _ EX UB MB PT BS PS (near_rotated X b a bt pt _ _ _ _ _ EX UB A BT PT R T V) S).
Qed.
Ltac md := unfold moderate in *; lra.
Ltac nv K := eapply (near_v_le _ _ _ _ _ _ _ _ EX K); cycle 2.
Definition kept_ride : frjet -> ride -> Prop := near_ride 1 1 1 1 1 1 1 1 1 1 1.
Lemma ride_product bs bw bv pv jx x jy y c : 0 <= bs <= 10 -> 0 <= bw <= 10 -> 0 <= bv <= 10 -> 0 <= pv <= 10 ->
  near_ride 1 bs 1 bw 1 bw 1 bv pv bv pv jx x -> kept_ride jy y -> frjet_mul jx jy c ->
  near_ride (212 / 100) (bs + 2122 / 1000) 2 (bw + 2123 / 1000) 2 (2 * bw + 4292 / 1000) 3 (bw + bv + 112 / 100 * pv + 4273 / 1000) (2 + pv) (3 * bw + 2 * bv + 33 / 10 * pv + 10763 / 1000) (4 + 2 * pv) c (riding x y).
Proof.
  intros Ms Mw Mv Mp (RX & SX & WX & WX' & VX & VX') (RY & SY & WY & WY' & VY & VY') (M & (i & w1 & I & A1 & D1) & (i1 & i2 & w2 & w1' & I1 & A2 & I2 & A1' & D2)).
  pose proof UN as (U1 & U2 & U3 & U4 & U5). pose proof (proj1 (proj2 RY)) as Ro. cbn [snd] in Ro. pose proof (rot_mtrans _ Ro) as Rt.
  (* what is seen from [y] *)
  assert (SEEN : forall n g, fpose_inverse (rf jy) g -> size_unit n -> size_unit (b * n) -> forall alg w v res, near_v X n bw 1 (frot_part alg) w -> near_v X (b * n) bv pv (ftrans_part alg) v -> fadjoint_times g alg res ->
    near_v X n (bw + 1102 / 1000) 1 (frot_part res) (mvec (mtrans (facing y)) w) /\
    near_v X (b * n) (bw + bv + 111 / 100 * pv + 32525 / 10000) (1 + pv) (ftrans_part res) (mvec (mtrans (facing y)) (vadd v (cross w (spot y))))).
  { intros n g G SN SB alg w v res W V A. destruct (near_inverse_pose 1 1 1 _ _ _ g ltac:(lra) ltac:(md) ltac:(md) RY SY G) as (RI & SI).
    destruct (near_adjoint n 1 ((1 + / 10) * (1 + 1 / 10 ^ 5) + 1 + / 10 ^ 3) 1 bw 1 bv pv (bw + 1102 / 1000) (bw + 3241 / 1000) (11 / 10 * pv + bv + 112 / 100000) g _ _ alg w v res SN SB ltac:(lra) ltac:(md) ltac:(md) ltac:(md) ltac:(md) ltac:(md) ltac:(md) ltac:(md) ltac:(md) ltac:(md) ltac:(md) RI SI W V A ltac:(lra) ltac:(lra) ltac:(lra)) as (N1 & N2).
    split; [exact N1|]. eapply near_is; [reflexivity| |eapply (near_v_le _ _ _ _ _ _ _ _ EX SB); [| |exact N2]; lra].
    rewrite mvec_add, <- (rot_cross (mtrans (facing y)) w) by exact Rt. generalize (mvec (mtrans (facing y)) (spot y)), (mvec (mtrans (facing y)) w), (mvec (mtrans (facing y)) v). intros [? ? ?] [? ? ?] [? ? ?]. vring. }
  destruct (SEEN m i I U1 U4 _ _ _ _ WX VX A1) as (P1 & P2). destruct (SEEN m i2 I2 U1 U4 _ _ _ _ WX VX A1') as (P1' & P2'). destruct (SEEN (m * m) i1 I1 U2 U5 _ _ _ _ WX' VX' A2) as (Q1 & Q2).
  destruct (near_product_pose 1 1 bs 1 1 1 _ _ _ _ _ _ _ ltac:(lra) ltac:(lra) ltac:(md) ltac:(md) ltac:(md) ltac:(md) ltac:(md) RX SX RY SY M) as (RC & SC).
  set (W := mvec (mtrans (facing y)) (swing x)) in *. set (V := mvec (mtrans (facing y)) (vadd (drive x) (cross (swing x) (spot y)))) in *.
  (* the bracket *)
  assert (C1 : near_v X (m * m) (bw + 21385 / 10000) 1 (fcross (frot_part (rd1 jy)) (frot_part w1')) (cross (swing y) W)).
  { eapply (near_v_le _ _ _ _ _ _ _ _ EX U2); [| |exact (near_cross' X m m _ _ _ _ _ _ _ _ EX U1 U1 U2 WY P1' ltac:(md) ltac:(md) ltac:(md) ltac:(md))]; lra. }
  assert (SB : size_unit (b * m * m)) by (replace (b * m * m) with (b * (m * m)) by ring; exact U5). assert (SB' : size_unit (m * (b * m))) by (replace (m * (b * m)) with (b * (m * m)) by ring; exact U5).
  assert (C2 : near_v X (b * (m * m)) (bw + 21385 / 10000) 1 (fcross (ftrans_part (rd1 jy)) (frot_part w1')) (cross (drive y) W)).
  { eapply near_is; [|reflexivity|eapply (near_v_le _ _ _ _ _ _ _ _ EX SB); [| |exact (near_cross' X (b * m) m _ _ _ _ _ _ _ _ EX U4 U1 SB VY P1' ltac:(md) ltac:(md) ltac:(md) ltac:(md))]; lra]. ring. }
  assert (C3 : near_v X (b * (m * m)) (bw + bv + 21452 / 10000 * pv + 42894 / 10000) (1 + pv) (fcross (frot_part (rd1 jy)) (ftrans_part w1')) (cross (swing y) V)).
  { eapply near_is; [|reflexivity|eapply (near_v_le _ _ _ _ _ _ _ _ EX SB'); [| |exact (near_cross' X m (b * m) _ _ _ _ _ _ _ _ EX U1 U4 SB' WY P2' ltac:(md) ltac:(md) ltac:(md) ltac:(md))]; lra]. ring. }
  pose proof (near_sum' _ _ _ _ _ _ _ _ _ _ EX U5 C2 C3 ltac:(md) ltac:(md) ltac:(md) ltac:(md)) as C4.
  pose proof (near_sum' _ _ _ _ _ _ _ _ _ _ EX U1 WY P1 ltac:(md) ltac:(md) ltac:(md) ltac:(md)) as T1. pose proof (near_sum' _ _ _ _ _ _ _ _ _ _ EX U4 VY P2 ltac:(md) ltac:(md) ltac:(md) ltac:(md)) as T2.
  pose proof (near_difference' _ _ _ _ _ _ _ _ _ _ EX U2 (near_sum' _ _ _ _ _ _ _ _ _ _ EX U2 WY' Q1 ltac:(md) ltac:(md) ltac:(md) ltac:(md)) C1 ltac:(md) ltac:(md) ltac:(md) ltac:(md)) as T3.
  pose proof (near_difference' _ _ _ _ _ _ _ _ _ _ EX U5 (near_sum' _ _ _ _ _ _ _ _ _ _ EX U5 VY' Q2 ltac:(md) ltac:(md) ltac:(md) ltac:(md)) C4 ltac:(md) ltac:(md) ltac:(md) ltac:(md)) as T4.
  unfold near_ride. rewrite D1, D2. cbn [riding facing spot swing drive swing' drive' ftadd ftsub flie_bracket frot_part ftrans_part]. fold W. fold V.
  split; [eapply stands_le; [exact RC|]; apply Rmult_le_compat_r; [pose proof (error_pos X EX); lra|lra]|].
  split; [eapply (near_v_le _ _ _ _ _ _ _ _ EX U3); [| |exact SC]; lra|].
  split; [eapply (near_v_le _ _ _ _ _ _ _ _ EX U1); [| |exact T1]; lra|].
  split; [eapply (near_v_le _ _ _ _ _ _ _ _ EX U2); [| |exact T3]; lra|].
  split; [eapply (near_v_le _ _ _ _ _ _ _ _ EX U4); [| |exact T2]; lra|].
  eapply near_is; [reflexivity| |eapply (near_v_le _ _ _ _ _ _ _ _ EX U5); [| |exact T4]; lra].
  replace (vadd (drive' x) (vadd (cross (swing' x) (spot y)) (cross (swing x) (mvec (facing y) (drive y))))) with (vadd (vadd (drive' x) (cross (swing' x) (spot y))) (cross (swing x) (mvec (facing y) (drive y))))
    by (generalize (cross (swing' x) (spot y)), (cross (swing x) (mvec (facing y) (drive y))), (drive' x); intros [? ? ?] [? ? ?] [? ? ?]; vring).
  rewrite (mvec_add (mtrans (facing y)) (vadd (drive' x) (cross (swing' x) (spot y)))), <- cross_r by exact Ro. fold W. generalize V, W, (mvec (mtrans (facing y)) (vadd (drive' x) (cross (swing' x) (spot y)))), (drive' y), (drive y), (swing y). intros [? ? ?] [? ? ?] [? ? ?] [? ? ?] [? ? ?] [? ? ?]. vring.
Qed.
Lemma ride_reverse jx x c : kept_ride jx x -> frjet_inverse jx c ->
  near_ride 1 (2102 / 1000) 1 (2102 / 1000) 1 (2102 / 1000) 1 (526 / 100) 2 (526 / 100) 2 c (reverse x).
Proof.
  intros (RX & SX & WX & WX' & VX & VX') (I & (w1 & A1 & D1) & (w2 & A2 & D2)). pose proof UN as (U1 & U2 & U3 & U4 & U5).
  assert (SEEN : forall n, size_unit n -> size_unit (b * n) -> forall alg w v res, near_v X n 1 1 (frot_part alg) w -> near_v X (b * n) 1 1 (ftrans_part alg) v -> fadjoint_times (rf jx) alg res ->
    near_v X n (2102 / 1000) 1 (fvneg (frot_part res)) (vneg (mvec (facing x) w)) /\
    near_v X (b * n) (526 / 100) 2 (fvneg (ftrans_part res)) (vsub (cross (mvec (facing x) w) (spot x)) (mvec (facing x) v))).
  { intros n SN SB alg w v res W V A.
    destruct (near_adjoint n 1 1 1 1 1 1 1 (21011 / 10000) (31372 / 10000) (21011 / 10000) _ _ _ alg w v res SN SB ltac:(lra) ltac:(md) ltac:(md) ltac:(md) ltac:(md) ltac:(md) ltac:(md) ltac:(md) ltac:(md) ltac:(md) ltac:(md) RX SX W V A ltac:(lra) ltac:(lra) ltac:(lra)) as (N1 & N2).
    apply near_neg in N1. apply near_neg in N2. split; [eapply (near_v_le _ _ _ _ _ _ _ _ EX SN); [| |exact N1]; lra|]. eapply near_is; [reflexivity| |eapply (near_v_le _ _ _ _ _ _ _ _ EX SB); [| |exact N2]; lra].
    generalize (spot x), (mvec (facing x) w), (mvec (facing x) v). intros [? ? ?] [? ? ?] [? ? ?]. vring. }
  destruct (SEEN m U1 U4 _ _ _ _ WX VX A1) as (P1 & P2). destruct (SEEN (m * m) U2 U5 _ _ _ _ WX' VX' A2) as (Q1 & Q2).
  destruct (near_inverse_pose 1 1 1 _ _ _ _ ltac:(lra) ltac:(md) ltac:(md) RX SX I) as (RI & SI).
  unfold near_ride. rewrite D1, D2. cbn [reverse facing spot swing drive swing' drive' ftneg frot_part ftrans_part].
  split; [exact RI|]. split; [eapply (near_v_le _ _ _ _ _ _ _ _ EX U3); [| |exact SI]; lra|]. auto.
Qed.
(** The same of flights. *)
Definition near_flight (a b0 p0 b1 p1 b2 p2 c1 q1 c2 q2 : R) (j : fpjet) (x : flight) : Prop :=
  stands_for (a * X) (frot (pf j), rot (spin x)) /\ near_v X b b0 p0 (ftrans (pf j)) (place x) /\
  near_v X m b1 p1 (frot_part (pd j)) (vel (spin x)) /\ near_v X (m * m) b2 p2 (frot_part (pd2 j)) (acc (spin x)) /\
  near_v X (b * m) c1 q1 (ftrans_part (pd j)) (slide x) /\ near_v X (b * (m * m)) c2 q2 (ftrans_part (pd2 j)) (surge x).
Definition kept_flight : fpjet -> flight -> Prop := near_flight 1 1 1 1 1 1 1 1 1 1 1.
Lemma flight_product jx x jy y c : kept_flight jx x -> kept_flight jy y -> fpjet_mul jx jy c ->
  near_flight (212 / 100) (313 / 100) 2 (313 / 100) 2 (63 / 10) 3 (63 / 10) 3 (169 / 10) 6 c (upon x y).
Proof.
  intros (RX & SX & WX & WX' & VX & VX') (RY & SY & WY & WY' & VY & VY') (M & (w1 & A1 & D1) & (w2 & w1' & A2 & A1' & D2)).
  pose proof UN as (U1 & U2 & U3 & U4 & U5).
  assert (SEEN : forall n, size_unit n -> size_unit (b * n) -> forall alg w v res, near_v X n 1 1 (frot_part alg) w -> near_v X (b * n) 1 1 (ftrans_part alg) v -> fadjoint_times (pf jx) alg res ->
    near_v X n (21011 / 10000) 1 (frot_part res) (mvec (rot (spin x)) w) /\
    near_v X (b * n) (5259 / 1000) 2 (ftrans_part res) (vadd (cross (place x) (mvec (rot (spin x)) w)) (mvec (rot (spin x)) v))).
  { intros n SN SB alg w v res W V A.
    destruct (near_adjoint n 1 1 1 1 1 1 1 (21011 / 10000) (31372 / 10000) (21011 / 10000) _ _ _ alg w v res SN SB ltac:(lra) ltac:(md) ltac:(md) ltac:(md) ltac:(md) ltac:(md) ltac:(md) ltac:(md) ltac:(md) ltac:(md) ltac:(md) RX SX W V A ltac:(lra) ltac:(lra) ltac:(lra)) as (N1 & N2).
    split; [exact N1|]. eapply (near_v_le _ _ _ _ _ _ _ _ EX SB); [| |exact N2]; lra. }
  destruct (SEEN m U1 U4 _ _ _ _ WY VY A1) as (P1 & P2). destruct (SEEN m U1 U4 _ _ _ _ WY VY A1') as (P1' & P2'). destruct (SEEN (m * m) U2 U5 _ _ _ _ WY' VY' A2) as (Q1 & Q2).
  destruct (near_product_pose 1 1 1 1 1 1 _ _ _ _ _ _ _ ltac:(lra) ltac:(lra) ltac:(md) ltac:(md) ltac:(md) ltac:(md) ltac:(md) RX SX RY SY M) as (RC & SC).
  assert (SB : size_unit (b * m * m)) by (replace (b * m * m) with (b * (m * m)) by ring; exact U5). assert (SB' : size_unit (m * (b * m))) by (replace (m * (b * m)) with (b * (m * m)) by ring; exact U5).
  pose proof (near_cross' X m m _ _ _ _ _ _ _ _ EX U1 U1 U2 WX P1' ltac:(md) ltac:(md) ltac:(md) ltac:(md)) as C1.
  pose proof (near_cross' X (b * m) m _ _ _ _ _ _ _ _ EX U4 U1 SB VX P1' ltac:(md) ltac:(md) ltac:(md) ltac:(md)) as C2. replace (b * m * m) with (b * (m * m)) in C2 by ring.
  pose proof (near_cross' X m (b * m) _ _ _ _ _ _ _ _ EX U1 U4 SB' WX P2' ltac:(md) ltac:(md) ltac:(md) ltac:(md)) as C3. replace (m * (b * m)) with (b * (m * m)) in C3 by ring.
  pose proof (near_sum' _ _ _ _ _ _ _ _ _ _ EX U5 C2 C3 ltac:(md) ltac:(md) ltac:(md) ltac:(md)) as C4.
  pose proof (near_sum' _ _ _ _ _ _ _ _ _ _ EX U1 WX P1 ltac:(md) ltac:(md) ltac:(md) ltac:(md)) as T1. pose proof (near_sum' _ _ _ _ _ _ _ _ _ _ EX U4 VX P2 ltac:(md) ltac:(md) ltac:(md) ltac:(md)) as T2.
  pose proof (near_sum' _ _ _ _ _ _ _ _ _ _ EX U2 (near_sum' _ _ _ _ _ _ _ _ _ _ EX U2 WX' Q1 ltac:(md) ltac:(md) ltac:(md) ltac:(md)) C1 ltac:(md) ltac:(md) ltac:(md) ltac:(md)) as T3.
  pose proof (near_sum' _ _ _ _ _ _ _ _ _ _ EX U5 (near_sum' _ _ _ _ _ _ _ _ _ _ EX U5 VX' Q2 ltac:(md) ltac:(md) ltac:(md) ltac:(md)) C4 ltac:(md) ltac:(md) ltac:(md) ltac:(md)) as T4.
  unfold near_flight. rewrite D1, D2. cbn [upon on_top spin rot vel acc place slide surge ftadd flie_bracket frot_part ftrans_part].
  split; [eapply stands_le; [exact RC|]; apply Rmult_le_compat_r; [pose proof (error_pos X EX); lra|lra]|].
  split; [eapply (near_v_le _ _ _ _ _ _ _ _ EX U3); [| |exact SC]; lra|].
  split; [eapply (near_v_le _ _ _ _ _ _ _ _ EX U1); [| |exact T1]; lra|].
  split; [eapply (near_v_le _ _ _ _ _ _ _ _ EX U2); [| |exact T3]; lra|].
  split; [eapply (near_v_le _ _ _ _ _ _ _ _ EX U4); [| |exact T2]; lra|].
  eapply (near_v_le _ _ _ _ _ _ _ _ EX U5); [| |exact T4]; lra.
Qed.
Lemma flight_undone jx x c : kept_flight jx x -> fpjet_inverse jx c ->
  near_flight 1 (211 / 100) 1 (211 / 100) 1 (211 / 100) 1 (64 / 10) 2 (64 / 10) 2 c (undone x).
Proof.
  intros (RX & SX & WX & WX' & VX & VX') (I & (w1 & A1 & D1) & (w2 & A2 & D2)). pose proof UN as (U1 & U2 & U3 & U4 & U5). pose proof (proj1 (proj2 RX)) as Ro. cbn [snd] in Ro. pose proof (rot_mtrans _ Ro) as Rt.
  destruct (near_inverse_pose 1 1 1 _ _ _ _ ltac:(lra) ltac:(md) ltac:(md) RX SX I) as (RI & SI).
  assert (SEEN : forall n, size_unit n -> size_unit (b * n) -> forall alg w v res, near_v X n 1 1 (frot_part alg) w -> near_v X (b * n) 1 1 (ftrans_part alg) v -> fadjoint_times (pf c) alg res ->
    near_v X n (211 / 100) 1 (fvneg (frot_part res)) (vneg (mvec (mtrans (rot (spin x))) w)) /\
    near_v X (b * n) (64 / 10) 2 (fvneg (ftrans_part res)) (vneg (mvec (mtrans (rot (spin x))) (vadd (cross w (place x)) v)))).
  { intros n SN SB alg w v res W V A.
    destruct (near_adjoint n 1 ((1 + / 10) * (1 + 1 / 10 ^ 5) + 1 + / 10 ^ 3) 1 1 1 1 1 (21011 / 10000) (42382 / 10000) (21011 / 10000) _ _ _ alg w v res SN SB ltac:(lra) ltac:(md) ltac:(md) ltac:(md) ltac:(md) ltac:(md) ltac:(md) ltac:(md) ltac:(md) ltac:(md) ltac:(md) RI SI W V A ltac:(lra) ltac:(lra) ltac:(lra)) as (N1 & N2).
    apply near_neg in N1. apply near_neg in N2. split; [eapply (near_v_le _ _ _ _ _ _ _ _ EX SN); [| |exact N1]; lra|]. eapply near_is; [reflexivity| |eapply (near_v_le _ _ _ _ _ _ _ _ EX SB); [| |exact N2]; lra].
    rewrite mvec_add, <- rot_cross by exact Rt. generalize (mvec (mtrans (rot (spin x))) (place x)), (mvec (mtrans (rot (spin x))) w), (mvec (mtrans (rot (spin x))) v). intros [? ? ?] [? ? ?] [? ? ?]. vring. }
  destruct (SEEN m U1 U4 _ _ _ _ WX VX A1) as (P1 & P2). destruct (SEEN (m * m) U2 U5 _ _ _ _ WX' VX' A2) as (Q1 & Q2).
  unfold near_flight. rewrite D1, D2. cbn [undone spin rot vel acc place slide surge ftneg frot_part ftrans_part].
  split; [exact RI|]. split; [eapply (near_v_le _ _ _ _ _ _ _ _ EX U3); [| |exact SI]; lra|]. auto.
Qed.
End Units.
