(** Adjoint matrices of SE3 in double precision. *)
From Coq Require Import Reals Lra Lia List.
From Flocq Require Import Core BinarySingleNaN.
From Verif Require Import Cpp FloatModel FloatSpec FloatProofs NrmSpec NrmProofs Vec RotSpec GeomModel RotProofs CoeffProofs LieProofs DriftModel DriftSpec DriftProofs SpinModel SpinSpec SpinProofs SpinProofs3 TwistModel FpsModel FmjModel FstModel FstSpec FstProofs FapModel FapSpec FapProofs FapProofs2 FapProofs3 FapProofs4 AdjModel AdjSpec AdjProofs AdjProofs2.
Import ListNotations.
Local Open Scope R_scope.

(** Sums of six and of two numbers that are nearly given ones. *)
Definition nearly (e : R) (x : f64) (q : R) : Prop := finite x /\ Rabs (val x - q) <= e.
Lemma nearly_mul a b Q : finite a -> finite b -> Rabs (val a * val b) <= Q -> Q <= 2 ^ 990 -> nearly (u * Q + h) (fmul a b) (val a * val b).
Proof.
  intros A B H L. assert (2 ^ 990 <= 2 ^ 1000) by (apply Rle_pow; [lra|lia]). destruct (mul_error a b A B) as [F E]; [lra|]. split; [exact F|]. pose proof u_pos. assert (u * Rabs (val a * val b) <= u * Q) by (apply Rmult_le_compat_l; lra). lra.
Qed.
Lemma abs_near x q e Q : Rabs (x - q) <= e -> Rabs q <= Q -> Rabs x <= Q + e.
Proof. intros A B. replace x with ((x - q) + q) by ring. eapply Rle_trans; [apply Rabs_triang|lra]. Qed.
Lemma six_sum p0 p1 p2 p3 p4 p5 q0 q1 q2 q3 q4 q5 Q0 Q1 Q2 Q3 Q4 Q5 e0 e1 e2 e3 e4 e5 s : fsum_of [p0; p1; p2; p3; p4; p5] s ->
  nearly e0 p0 q0 -> nearly e1 p1 q1 -> nearly e2 p2 q2 -> nearly e3 p3 q3 -> nearly e4 p4 q4 -> nearly e5 p5 q5 ->
  Rabs q0 <= Q0 -> Rabs q1 <= Q1 -> Rabs q2 <= Q2 -> Rabs q3 <= Q3 -> Rabs q4 <= Q4 -> Rabs q5 <= Q5 ->
  let S := Q0 + Q1 + Q2 + Q3 + Q4 + Q5 in let E := e0 + e1 + e2 + e3 + e4 + e5 in S + E <= 2 ^ 1000 ->
  nearly (5 * u * (S + E) + E) s (q0 + q1 + q2 + q3 + q4 + q5).
Proof.
  intros H (F0 & E0) (F1 & E1) (F2 & E2) (F3 & E3) (F4 & E4) (F5 & E5) A0 A1 A2 A3 A4 A5 S E B. pose proof u_pos as UP.
  pose proof (abs_near _ _ _ _ E0 A0). pose proof (abs_near _ _ _ _ E1 A1). pose proof (abs_near _ _ _ _ E2 A2). pose proof (abs_near _ _ _ _ E3 A3). pose proof (abs_near _ _ _ _ E4 A4). pose proof (abs_near _ _ _ _ E5 A5).
  destruct (sum_near _ _ H) as (F & N & _).
  - repeat (apply Forall_cons; [assumption|]). apply Forall_nil.
  - unfold add_up. cbn [map fold_right]. unfold S, E in B. lra.
  - cbn [length INR]. rewrite u_num. lra.
  - split; [exact F|]. unfold add_up in N. cbn [map fold_right length INR Nat.pred] in N. set (Z := Rabs (val p0) + _) in N.
    assert (Zb : Z <= S + E) by (unfold Z, S, E; lra). assert ((1 + 1 + 1 + 1 + 1) * u * Z <= 5 * u * (S + E)) by (replace (1 + 1 + 1 + 1 + 1) with 5 by ring; apply Rmult_le_compat_l; lra).
    unfold E at 2. apply Rabs_le_inv in N, E0, E1, E2, E3, E4, E5. apply Rabs_le. lra.
Qed.
Lemma two_sub p q x y e f A B : nearly e p x -> nearly f q y -> Rabs x <= A -> Rabs y <= B -> A + B + (e + f) <= 2 ^ 1000 -> nearly (u * (A + B + (e + f)) + (e + f)) (fsub p q) (x - y).
Proof.
  intros (FP & EP) (FQ & EQ) HA HB L. pose proof (abs_near _ _ _ _ EP HA) as P. pose proof (abs_near _ _ _ _ EQ HB) as Q. pose proof u_pos.
  assert (T : Rabs (val p - val q) <= A + B + (e + f)) by (unfold Rminus; pose proof (Rabs_triang (val p) (- val q)) as T; rewrite Rabs_Ropp in T; lra).
  pose proof (Rabs_pos (val p - val q)). destruct (sub_error p q FP FQ) as [F N]; [lra|]. split; [exact F|]. assert (u * Rabs (val p - val q) <= u * (A + B + (e + f))) by (apply Rmult_le_compat_l; lra).
  apply Rabs_le_inv in N, EP, EQ. apply Rabs_le. lra.
Qed.
Lemma two_add p q x y e f A B : nearly e p x -> nearly f q y -> Rabs x <= A -> Rabs y <= B -> A + B + (e + f) <= 2 ^ 1000 -> nearly (u * (A + B + (e + f)) + (e + f)) (fadd p q) (x + y).
Proof.
  intros P (FQ & EQ) HA HB L. rewrite <- fsub_neg. replace (x + y) with (x - - y) by ring. apply two_sub; [exact P| |exact HA|rewrite Rabs_Ropp; exact HB|exact L].
  split; [unfold finite; rewrite fneg_finite; exact FQ|]. rewrite fneg_val. replace (- val q - - y) with (- (val q - y)) by ring. rewrite Rabs_Ropp. exact EQ.
Qed.
Lemma nearly_neg e x q : nearly e x q -> nearly e (fneg x) (- q).
Proof. intros (F & E). split; [unfold finite; rewrite fneg_finite; exact F|]. rewrite fneg_val. replace (- val x - - q) with (- (val x - q)) by ring. rewrite Rabs_Ropp. exact E. Qed.
Lemma nearly_weaken e f x q : nearly e x q -> e <= f -> nearly f x q.
Proof. intros (F & E) L. split; [exact F|lra]. Qed.

(** ** Of an algebra element *)
Section Algebra.
Variables (a b : ftan) (B : R).
Hypothesis (Fa : tfinite a) (Fb : tfinite b) (Ba : twithin B a) (Bb : twithin B b) (Bs : 0 <= B <= 2 ^ 490).
Definition bb : R := B * B.
Lemma bb_bounds : 0 <= bb <= 2 ^ 980.
Proof. unfold bb. split; [apply Rmult_le_pos; lra|]. change 980%nat with (490 + 490)%nat. rewrite pow_add. apply Rmult_le_compat; lra. Qed.
Lemma product_bb x y : Rabs (val x) <= B -> Rabs (val y) <= B -> Rabs (val x * val y) <= bb.
Proof. intros. rewrite Rabs_mult. apply Rmult_le_compat; try apply Rabs_pos; assumption. Qed.
Lemma bb_pow : 2 ^ 990 = 1024 * 2 ^ 980 /\ 2 ^ 1000 = 1048576 * 2 ^ 980 /\ 1 <= 2 ^ 980.
Proof. split; [|split]; [change 990%nat with (10 + 980)%nat|change 1000%nat with (20 + 980)%nat|apply pow_R1_Rle; lra]; rewrite pow_add; lra. Qed.
Definition unit_error : R := u * bb + h.
Lemma unit_product x y : finite x -> finite y -> Rabs (val x) <= B -> Rabs (val y) <= B -> nearly unit_error (fmul x y) (val x * val y).
Proof. intros. pose proof bb_bounds. destruct bb_pow as (P & _ & O). apply nearly_mul; auto; [apply product_bb; assumption|lra]. Qed.
Lemma unit_neg_product x y : finite x -> finite y -> Rabs (val x) <= B -> Rabs (val y) <= B -> nearly unit_error (fmul (fneg x) y) (- (val x * val y)).
Proof. intros. rewrite fmul_neg_l. apply nearly_neg, unit_product; assumption. Qed.
Lemma zero_product y : finite y -> nearly 0 (fmul (of_int 0) y) 0.
Proof. intro F. destruct (times_zero y F) as [s ->]. split; [reflexivity|]. cbn. rewrite Rminus_0_r, Rabs_R0. lra. Qed.
Lemma error_small : 0 <= unit_error <= 2 ^ 980 + 1.
Proof. unfold unit_error. pose proof bb_bounds. pose proof u_pos. pose proof h_pos. pose proof h_1. assert (u * bb <= 1 * bb) by (apply Rmult_le_compat_r; [lra|rewrite u_num; lra]). assert (0 <= u * bb) by (apply Rmult_le_pos; lra). lra. Qed.
Lemma cross_entry x y z w : finite x -> finite y -> finite z -> finite w -> Rabs (val x) <= B -> Rabs (val y) <= B -> Rabs (val z) <= B -> Rabs (val w) <= B ->
  nearly (5 * (u * bb) + 3 * h) (fsub (fmul x y) (fmul z w)) (val x * val y - val z * val w) /\ Rabs (val x * val y - val z * val w) <= 2 * bb.
Proof.
  intros. pose proof bb_bounds. destruct bb_pow as (_ & P & O). pose proof error_small. pose proof h_pos. pose proof u_pos. pose proof (product_bb x y) as K1. pose proof (product_bb z w) as K2. split.
  - eapply nearly_weaken; [apply (two_sub _ _ _ _ unit_error unit_error bb bb); auto using unit_product; lra|]. unfold unit_error.
    assert (u * (bb + bb + (u * bb + h + (u * bb + h))) <= 25 / 10 * (u * bb) + / 2 * h).
    { assert (u * (u * bb) <= / 100 * (u * bb)) by (apply Rmult_le_compat_r; [apply Rmult_le_pos; lra|rewrite u_num; lra]). assert (u * h <= / 100 * h) by (apply Rmult_le_compat_r; [lra|rewrite u_num; lra]). assert (0 <= u * bb) by (apply Rmult_le_pos; lra). lra. }
    assert (0 <= u * bb) by (apply Rmult_le_pos; lra). lra.
  - unfold Rminus. pose proof (Rabs_triang (val x * val y) (- (val z * val w))) as T. rewrite Rabs_Ropp in T. specialize (K1 ltac:(assumption) ltac:(assumption)). specialize (K2 ltac:(assumption) ltac:(assumption)). lra.
Qed.
Lemma small_terms : 0 <= u * bb /\ u * (u * bb) <= / 1000 * (u * bb) /\ u * h <= / 1000 * h /\ 0 < h.
Proof.
  pose proof bb_bounds. pose proof u_pos. pose proof h_pos. assert (0 <= u * bb) by (apply Rmult_le_pos; lra). split; [assumption|]. split; [apply Rmult_le_compat_r; [assumption|rewrite u_num; lra]|]. split; [apply Rmult_le_compat_r; [lra|rewrite u_num; lra]|assumption].
Qed.
(** Two and four products among zeros. *)
Lemma row_two p0 p1 p2 p3 p4 p5 q0 q1 q2 q3 q4 q5 s Q0 Q1 Q2 Q3 Q4 Q5 e0 e1 e2 e3 e4 e5 n : fsum_of [p0; p1; p2; p3; p4; p5] s ->
  nearly e0 p0 q0 -> nearly e1 p1 q1 -> nearly e2 p2 q2 -> nearly e3 p3 q3 -> nearly e4 p4 q4 -> nearly e5 p5 q5 ->
  Rabs q0 <= Q0 -> Rabs q1 <= Q1 -> Rabs q2 <= Q2 -> Rabs q3 <= Q3 -> Rabs q4 <= Q4 -> Rabs q5 <= Q5 ->
  0 <= n <= 4 -> Q0 + Q1 + Q2 + Q3 + Q4 + Q5 <= n * bb -> e0 + e1 + e2 + e3 + e4 + e5 = n * unit_error ->
  nearly (n * (61 / 10 * (u * bb) + 11 / 10 * h)) s (q0 + q1 + q2 + q3 + q4 + q5).
Proof.
  intros H N0 N1 N2 N3 N4 N5 A0 A1 A2 A3 A4 A5 [n0 n4] S E. pose proof bb_bounds. destruct bb_pow as (_ & P & O). pose proof error_small as ES. destruct small_terms as (T0 & T1 & T2 & T3). pose proof u_pos.
  assert (n * bb <= 4 * 2 ^ 980) by (apply Rmult_le_compat; lra). assert (n * unit_error <= 4 * (2 ^ 980 + 1)) by (apply Rmult_le_compat; lra).
  eapply nearly_weaken; [eapply six_sum; eauto; rewrite E; lra|]. cbv zeta. rewrite E.
  assert (5 * u * (Q0 + Q1 + Q2 + Q3 + Q4 + Q5 + n * unit_error) <= 5 * u * (n * bb + n * unit_error)) by (apply Rmult_le_compat_l; lra).
  replace (5 * u * (n * bb + n * unit_error)) with (n * (5 * (u * bb) + 5 * (u * (u * bb)) + 5 * (u * h))) in * by (unfold unit_error; ring).
  assert (n * (5 * (u * bb) + 5 * (u * (u * bb)) + 5 * (u * h)) <= n * (506 / 100 * (u * bb) + / 100 * h)) by (apply Rmult_le_compat_l; lra).
  assert (n * unit_error = n * (u * bb + h)) by reflexivity. assert (0 <= n * (u * bb)) by (apply Rmult_le_pos; lra). assert (0 <= n * h) by (apply Rmult_le_pos; lra). lra.
Qed.
Lemma abs_zero : Rabs 0 <= 0. Proof. rewrite Rabs_R0. lra. Qed.
Definition apart_by (e : R) (x y : f64) : Prop := finite x /\ finite y /\ Rabs (val x - val y) <= e.
Lemma nearly_both e f x y q : nearly e x q -> nearly f y q -> apart_by (e + f) x y.
Proof. intros (F & E) (G & D). split; [exact F|]. split; [exact G|]. apply Rabs_le_inv in E, D. apply Rabs_le. lra. Qed.
Lemma apart_weaken e f x y : apart_by e x y -> e <= f -> apart_by f x y.
Proof. intros (F & G & E) L. split; [exact F|]. split; [exact G|lra]. Qed.
Lemma abs_neg_bb x y : Rabs (val x) <= B -> Rabs (val y) <= B -> Rabs (- (val x * val y)) <= bb.
Proof. intros. rewrite Rabs_Ropp. apply product_bb; assumption. Qed.
Lemma zeros_last x y z : finite x -> finite y -> finite z -> nearly 0 (fmul (of_int 0) x) 0 /\ nearly 0 (fmul (of_int 0) y) 0 /\ nearly 0 (fmul (of_int 0) z) 0.
Proof. auto using zero_product. Qed.
Lemma rows_near alt : fmap6_times (fse3_algebra_adjoint a) b alt -> tboth (apart_by (40 * (u * bb) + 12 * h)) (flie_bracket a b) alt.
Proof.
  intros ((R0 & R1 & R2) & (T0 & T1 & T2)). destruct Fa as ((ax & ay & az) & (bx & by' & bz)), Fb as ((wx & wy & wz) & (vx' & vy' & vz')), Ba as ((Ax & Ay & Az) & (Bx & By & Bz)), Bb as ((Wx & Wy & Wz) & (Vx & Vy & Vz)).
  unfold frow6, fse3_algebra_adjoint, fmzero, fcross_matrix in R0, R1, R2, T0, T1, T2. cbn [top_left top_right bottom_left bottom_right f00 f01 f02 f10 f11 f12 f20 f21 f22] in R0, R1, R2, T0, T1, T2.
  pose proof (zero_product _ wx) as Z0. pose proof (zero_product _ wy) as Z1. pose proof (zero_product _ wz) as Z2. pose proof (zero_product _ vx') as Z3. pose proof (zero_product _ vy') as Z4. pose proof (zero_product _ vz') as Z5.
  destruct small_terms as (S0 & S1 & S2 & S3). pose proof bb_bounds as BBB. destruct bb_pow as (_ & PW & OW). pose proof abs_zero as AZ.
  assert (rot : forall x y z w s q, nearly (2 * (61 / 10 * (u * bb) + 11 / 10 * h)) s q -> finite x -> finite y -> finite z -> finite w -> Rabs (val x) <= B -> Rabs (val y) <= B -> Rabs (val z) <= B -> Rabs (val w) <= B -> q = val x * val y - val z * val w ->
    apart_by (40 * (u * bb) + 12 * h) (fsub (fmul x y) (fmul z w)) s).
  { intros x y z w s q N ? ? ? ? ? ? ? ? ->. destruct (cross_entry x y z w) as [C _]; auto. eapply apart_weaken; [apply (nearly_both _ _ _ _ _ C N)|]. lra. }
  assert (tr : forall x y z w x' y' z' w' s q, nearly (4 * (61 / 10 * (u * bb) + 11 / 10 * h)) s q -> finite x -> finite y -> finite z -> finite w -> Rabs (val x) <= B -> Rabs (val y) <= B -> Rabs (val z) <= B -> Rabs (val w) <= B ->
    finite x' -> finite y' -> finite z' -> finite w' -> Rabs (val x') <= B -> Rabs (val y') <= B -> Rabs (val z') <= B -> Rabs (val w') <= B -> q = (val x * val y - val z * val w) + (val x' * val y' - val z' * val w') ->
    apart_by (40 * (u * bb) + 12 * h) (fadd (fsub (fmul x y) (fmul z w)) (fsub (fmul x' y') (fmul z' w'))) s).
  { intros x y z w x' y' z' w' s q N ? ? ? ? ? ? ? ? ? ? ? ? ? ? ? ? ->. destruct (cross_entry x y z w) as [C L]; auto. destruct (cross_entry x' y' z' w') as [C' L']; auto. pose proof h_1. pose proof error_small.
    assert (u * bb <= 1 * bb) by (apply Rmult_le_compat_r; [lra|rewrite u_num; lra]).
    pose proof (two_add _ _ _ _ _ _ _ _ C C' L L' ltac:(lra)) as D. eapply apart_weaken; [apply (nearly_both _ _ _ _ _ D N)|].
    replace (u * (2 * bb + 2 * bb + (5 * (u * bb) + 3 * h + (5 * (u * bb) + 3 * h)))) with (4 * (u * bb) + 10 * (u * (u * bb)) + 6 * (u * h)) by ring. lra. }
  unfold tboth, vboth, flie_bracket, fcross, fvadd. cbn [frot_part ftrans_part fx fy fz].
  split; (split; [|split]).
  - eapply rot; [eapply (row_two _ _ _ _ _ _ _ _ _ _ _ _ _ 0 bb bb 0 0 0 _ _ _ _ _ _ 2 R0 Z0 (unit_neg_product _ _ az wy Az Wy) (unit_product _ _ ay wz Ay Wz) Z3 Z4 Z5); auto using product_bb, abs_neg_bb; lra|..]; auto. ring.
  - eapply rot; [eapply (row_two _ _ _ _ _ _ _ _ _ _ _ _ _ bb 0 bb 0 0 0 _ _ _ _ _ _ 2 R1 (unit_product _ _ az wx Az Wx) Z1 (unit_neg_product _ _ ax wz Ax Wz) Z3 Z4 Z5); auto using product_bb, abs_neg_bb; lra|..]; auto. ring.
  - eapply rot; [eapply (row_two _ _ _ _ _ _ _ _ _ _ _ _ _ bb bb 0 0 0 0 _ _ _ _ _ _ 2 R2 (unit_neg_product _ _ ay wx Ay Wx) (unit_product _ _ ax wy Ax Wy) Z2 Z3 Z4 Z5); auto using product_bb, abs_neg_bb; lra|..]; auto. ring.
  - eapply tr; [eapply (row_two _ _ _ _ _ _ _ _ _ _ _ _ _ 0 bb bb 0 bb bb _ _ _ _ _ _ 4 T0 Z0 (unit_neg_product _ _ bz wy Bz Wy) (unit_product _ _ by' wz By Wz) Z3 (unit_neg_product _ _ az vy' Az Vy) (unit_product _ _ ay vz' Ay Vz)); auto using product_bb, abs_neg_bb; lra|..]; auto. ring.
  - eapply tr; [eapply (row_two _ _ _ _ _ _ _ _ _ _ _ _ _ bb 0 bb bb 0 bb _ _ _ _ _ _ 4 T1 (unit_product _ _ bz wx Bz Wx) Z1 (unit_neg_product _ _ bx wz Bx Wz) (unit_product _ _ az vx' Az Vx) Z4 (unit_neg_product _ _ ax vz' Ax Vz)); auto using product_bb, abs_neg_bb; lra|..]; auto. ring.
  - eapply tr; [eapply (row_two _ _ _ _ _ _ _ _ _ _ _ _ _ bb bb 0 bb bb 0 _ _ _ _ _ _ 4 T2 (unit_neg_product _ _ by' wx By Wx) (unit_product _ _ bx wy Bx Wy) Z2 (unit_neg_product _ _ ay vx' Ay Vx) (unit_product _ _ ax vy' Ax Vy) Z5); auto using product_bb, abs_neg_bb; lra|..]; auto. ring.
Qed.
End Algebra.
