(** C89: the tests over pairs of algebra elements of SE3 pass. *)
From Coq Require Import Reals ZArith Lia Lra List Psatz Permutation.
From Flocq Require Import Core BinarySingleNaN.
From Verif Require Import Cpp FloatModel FloatSpec FloatProofs NrmSpec NrmProofs Vec RotSpec GeomModel RotProofs CoeffProofs LieProofs DriftModel DriftSpec DriftProofs DriftProofs2 SpinModel SpinSpec SpinProofs SpinProofs3 TwistModel FpsModel FmjModel FstModel FstSpec FstProofs FapModel FapSpec FapProofs FapProofs2 FapProofs3 FapProofs4 AdjModel AdjSpec AdjProofs AdjProofs2 AdjProofs3 AdjProofs4 AdjProofs5 AdjProofs7 TvModel TvSpec TvProofs TvProofs2 TvProofs3 TvProofs4.
Import ListNotations.
Local Open Scope R_scope.

(** Rounding a number below 2^21. *)
Definition q : R := / 8589934592.
Lemma rd_21 x : Rabs x <= 2097152 -> Rabs (rd x - x) <= q /\ ~ overflows x.
Proof.
  intro B. split; [apply (rd_err 21 x); [lia|exact B]|]. apply big_sum. assert (2 ^ 21 <= 2 ^ 1000) by (apply Rle_pow; [lra|lia]). lra.
Qed.
Lemma add_21 x y : finite x -> finite y -> Rabs (val x + val y) <= 2097152 -> nearly q (fadd x y) (val x + val y).
Proof. intros X Y B. destruct (rd_21 _ B) as [E O]. destruct (fadd_val x y X Y O) as [F V]. split; [exact F|]. rewrite V. exact E. Qed.
Lemma sub_21 x y : finite x -> finite y -> Rabs (val x - val y) <= 2097152 -> nearly q (fsub x y) (val x - val y).
Proof. intros X Y B. destruct (rd_21 _ B) as [E O]. destruct (fsub_val x y X Y O) as [F V]. split; [exact F|]. rewrite V. exact E. Qed.
Lemma q_pos : 0 < q < / 1000. Proof. unfold q. lra. Qed.
Lemma sum_21 l s : fsum_of l s -> Forall finite l -> add_up (map Rabs (map val l)) + INR (length l) * q <= 2097152 ->
  finite s /\ Rabs (val s - add_up (map val l)) <= INR (Nat.pred (length l)) * q /\ (l = [] -> val s = 0).
Proof.
  induction 1 as [|x|l k k' x y P K IK K' IK']; intros F B.
  - split; [reflexivity|]. assert (V : val (of_int 0) = 0) by (apply (val_int 0); discriminate). split; [|auto]. rewrite V. cbn. rewrite Rminus_0_r, Rabs_R0. lra.
  - split; [inversion F; assumption|]. split; [|discriminate]. cbn. replace (val x - (val x + 0)) with 0 by ring. rewrite Rabs_R0. lra.
  - assert (LP : length l = (length k + length k')%nat) by (rewrite (Permutation_length P), app_length; reflexivity).
    assert (SP : add_up (map val l) = add_up (map val k) + add_up (map val k')) by (rewrite <- add_up_app, <- map_app; apply add_up_perm, Permutation_map, P).
    assert (AP : add_up (map Rabs (map val l)) = add_up (map Rabs (map val k)) + add_up (map Rabs (map val k'))) by (rewrite <- add_up_app, <- !map_app; apply add_up_perm; do 2 apply Permutation_map; exact P).
    rewrite SP, AP in *. rewrite LP in *. rewrite plus_INR in B. destruct q_pos as [Q0 Q1]. pose proof (pos_INR (length k)) as PK. pose proof (pos_INR (length k')) as PK'.
    pose proof (add_up_pos (map val k)) as SK. pose proof (add_up_pos (map val k')) as SK'.
    assert (FF : Forall finite (k ++ k')) by (eapply Permutation_Forall; eassumption). apply Forall_app in FF. destruct FF as [FK FK'].
    assert (NK : 0 <= INR (length k) * q) by (apply Rmult_le_pos; lra). assert (NK' : 0 <= INR (length k') * q) by (apply Rmult_le_pos; lra).
    destruct (IK FK) as (FX & EX & ZX); [lra|]. destruct (IK' FK') as (FY & EY & ZY); [lra|].
    pose proof (add_up_abs (map val k)) as AK. pose proof (add_up_abs (map val k')) as AK'. set (S1 := add_up (map Rabs (map val k))) in *. set (S2 := add_up (map Rabs (map val k'))) in *.
    set (s1 := add_up (map val k)) in *. set (s2 := add_up (map val k')) in *.
    assert (PL : INR (Nat.pred (length k)) * q <= INR (length k) * q) by (apply Rmult_le_compat_r; [lra|apply le_INR; lia]).
    assert (PL' : INR (Nat.pred (length k')) * q <= INR (length k') * q) by (apply Rmult_le_compat_r; [lra|apply le_INR; lia]).
    assert (BS : Rabs (val x + val y) <= 2097152) by (apply Rabs_le_inv in EX, EY, AK, AK'; apply Rabs_le; lra).
    destruct (rd_21 _ BS) as [E O]. destruct (fadd_val x y FX FY O) as [FA VA]. split; [exact FA|]. rewrite VA.
    assert (ZR : forall z, rd (0 + val z) = val z) by (intro z; rewrite Rplus_0_l; apply rd_id, val_fmt).
    destruct k as [|a k].
    { rewrite (ZX eq_refl), ZR. unfold s1. cbn. rewrite !Rplus_0_l. split; [exact EY|]. intro E'. apply ZY. apply Permutation_length in P. subst l. cbn in P. destruct k'; [reflexivity|discriminate P]. }
    destruct k' as [|b k'].
    { rewrite (ZY eq_refl), Rplus_comm, ZR. unfold s2. cbn [map add_up fold_right]. rewrite !Rplus_0_r, Nat.add_0_r. split; [exact EX|]. intro E'. subst l. apply Permutation_nil in P. discriminate P. }
    split; [|intro E'; subst l; apply Permutation_nil in P; discriminate P].
    replace (Nat.pred (length (a :: k) + length (b :: k'))) with (Datatypes.S (length k + length k'))%nat by (cbn; lia). cbn [length Nat.pred] in EX, EY. rewrite S_INR, plus_INR. apply Rabs_le_inv in EX, EY, E. apply Rabs_le. lra.
Qed.
Lemma six_21 x0 x1 x2 x3 x4 x5 s M : fsum_of [x0; x1; x2; x3; x4; x5] s -> finite x0 -> finite x1 -> finite x2 -> finite x3 -> finite x4 -> finite x5 ->
  Rabs (val x0) + Rabs (val x1) + Rabs (val x2) + Rabs (val x3) + Rabs (val x4) + Rabs (val x5) <= M -> M <= 2000010 -> nearly (5 * q) s (val x0 + val x1 + val x2 + val x3 + val x4 + val x5).
Proof.
  intros H F0 F1 F2 F3 F4 F5 A B. destruct (sum_21 _ _ H) as (F & E & _).
  - repeat (apply Forall_cons; [assumption|]). apply Forall_nil.
  - unfold add_up. cbn [map fold_right length INR]. destruct q_pos. lra.
  - split; [exact F|]. unfold add_up in E. cbn [map fold_right length INR Nat.pred] in E. apply Rabs_le_inv in E. apply Rabs_le. lra.
Qed.
Lemma product_M x y B C : finite x -> finite y -> Rabs (val x) <= B -> Rabs (val y) <= C -> B * C <= 1000000 -> finite (fmul x y) /\ Rabs (val (fmul x y)) <= B * C + / 1000.
Proof.
  intros X Y HB HC L. assert (K : Rabs (val x * val y) <= B * C) by (rewrite Rabs_mult; apply Rmult_le_compat; try apply Rabs_pos; assumption). destruct big_1000 as [BB _]. pose proof h_1.
  assert (1000000 <= 2 ^ 1000) by (apply Rle_trans with (2 ^ 20); [lra|apply Rle_pow; [lra|lia]]). destruct (mul_error x y X Y ltac:(lra)) as [F E]. split; [exact F|]. rewrite u_num in E. assert (H1 := h_tiny'). pose proof (Rabs_pos (val x * val y)).
  assert (/ 10 ^ 60 <= / 10 ^ 20) by (apply Rinv_le_contravar; [apply pow_lt; lra|apply Rle_pow; [lra|lia]]).
  replace (val (fmul x y)) with (val x * val y + (val (fmul x y) - val x * val y)) by ring. eapply Rle_trans; [apply Rabs_triang|]. lra.
Qed.
Lemma zero_term y : finite y -> finite (fmul (of_int 0) y) /\ val (fmul (of_int 0) y) = 0.
Proof. intro F. destruct (times_zero y F) as [s ->]. split; reflexivity. Qed.
Lemma neg_term x : finite x -> finite (fneg x) /\ val (fneg x) = - val x.
Proof. intro F. split; [unfold finite; rewrite fneg_finite; exact F|apply fneg_val]. Qed.
Lemma two_terms p r s : finite p -> finite r -> Rabs (val p) <= 2 -> Rabs (val r) <= 2 -> nearly (5 * q) s (val p - val r) -> apart_by (71 / 10 * q) (fsub p r) s.
Proof.
  intros P R A B N. apply apart_weaken with (q + 5 * q); [|destruct q_pos; lra]. apply (nearly_both _ _ _ _ (val p - val r)); [|exact N]. apply sub_21; [exact P|exact R|]. apply Rabs_le_inv in A, B. apply Rabs_le. lra.
Qed.
Lemma four_terms p r p' r' s : finite p -> finite r -> finite p' -> finite r' -> Rabs (val p) <= 1000001 -> Rabs (val r) <= 1000001 -> Rabs (val p') <= 2 -> Rabs (val r') <= 2 ->
  nearly (5 * q) s (val p - val r + (val p' - val r')) -> apart_by (71 / 10 * q) (fadd (fsub p r) (fsub p' r')) s.
Proof.
  intros P R P' R' A B C D N. apply Rabs_le_inv in A, B, C, D. destruct q_pos as [Q0 Q1].
  destruct (sub_21 p r P R) as [F E]; [apply Rabs_le; lra|].
  assert (E' : nearly (/ 10 * q) (fsub p' r') (val p' - val r')).
  { assert (K : Rabs (val p' - val r') <= 4) by (apply Rabs_le; lra). destruct big_1000 as [BB _]. destruct (sub_error p' r' P' R') as [G V]; [assert (4 <= 2 ^ 1000) by (apply Rle_trans with (2 ^ 2); [lra|apply Rle_pow; [lra|lia]]); lra|]. split; [exact G|]. unfold q. rewrite u_num in V. lra. }
  destruct E' as [F' E']. apply Rabs_le_inv in E, E'. destruct (add_21 (fsub p r) (fsub p' r') F F') as [G V]; [apply Rabs_le; lra|].
  apply apart_weaken with (21 / 10 * q + 5 * q); [|lra]. apply (nearly_both _ _ _ _ (val p - val r + (val p' - val r'))); [|exact N]. split; [exact G|]. apply Rabs_le_inv in V. apply Rabs_le. lra.
Qed.
Lemma rows_21 a b alt : sound6 a -> tfinite b -> twithin 1 b -> fmap6_times (fse3_algebra_adjoint a) b alt -> tboth (apart_by (71 / 10 * q)) (flie_bracket a b) alt.
Proof.
  intros (((ax & ay & az) & (Ax & Ay & Az) & _) & (bx & by' & bz) & (Bx & By & Bz)) ((wx & wy & wz) & (vx' & vy' & vz')) ((Wx & Wy & Wz) & (Vx & Vy & Vz)) ((R0 & R1 & R2) & (T0 & T1 & T2)).
  unfold frow6, fse3_algebra_adjoint, fmzero, fcross_matrix in R0, R1, R2, T0, T1, T2. cbn [top_left top_right bottom_left bottom_right f00 f01 f02 f10 f11 f12 f20 f21 f22] in R0, R1, R2, T0, T1, T2.
  repeat rewrite fmul_neg_l in R0. repeat rewrite fmul_neg_l in R1. repeat rewrite fmul_neg_l in R2. repeat rewrite fmul_neg_l in T0. repeat rewrite fmul_neg_l in T1. repeat rewrite fmul_neg_l in T2.
  destruct (zero_term _ wx) as [G0 Z0]. destruct (zero_term _ wy) as [G1 Z1]. destruct (zero_term _ wz) as [G2 Z2]. destruct (zero_term _ vx') as [G3 Z3]. destruct (zero_term _ vy') as [G4 Z4]. destruct (zero_term _ vz') as [G5 Z5].
  assert (small : forall x y, finite x -> finite y -> Rabs (val x) <= 180809 / 100000 -> Rabs (val y) <= 1 -> finite (fmul x y) /\ Rabs (val (fmul x y)) <= 2).
  { intros x y X Y HX HY. destruct (product_M x y (180809 / 100000) 1 X Y HX HY) as [F K]; [lra|]. split; [exact F|lra]. }
  assert (large : forall x y, finite x -> finite y -> Rabs (val x) <= 1000000 -> Rabs (val y) <= 1 -> finite (fmul x y) /\ Rabs (val (fmul x y)) <= 1000001).
  { intros x y X Y HX HY. destruct (product_M x y 1000000 1 X Y HX HY) as [F K]; [lra|]. split; [exact F|lra]. }
  assert (rot : forall x0 x1 x2 x3 x4 x5 p r s, fsum_of [x0; x1; x2; x3; x4; x5] s -> finite x0 -> finite x1 -> finite x2 -> finite x3 -> finite x4 -> finite x5 -> finite p -> finite r -> Rabs (val p) <= 2 -> Rabs (val r) <= 2 ->
    val x0 + val x1 + val x2 + val x3 + val x4 + val x5 = val p - val r -> Rabs (val x0) + Rabs (val x1) + Rabs (val x2) + Rabs (val x3) + Rabs (val x4) + Rabs (val x5) = Rabs (val p) + Rabs (val r) -> apart_by (71 / 10 * q) (fsub p r) s).
  { intros x0 x1 x2 x3 x4 x5 p r s H F0 F1 F2 F3 F4 F5 P R HP HR V A. apply two_terms; try assumption. rewrite <- V. apply (six_21 _ _ _ _ _ _ _ 4 H); try assumption; lra. }
  assert (tr : forall x0 x1 x2 x3 x4 x5 p r p' r' s, fsum_of [x0; x1; x2; x3; x4; x5] s -> finite x0 -> finite x1 -> finite x2 -> finite x3 -> finite x4 -> finite x5 -> finite p -> finite r -> finite p' -> finite r' ->
    Rabs (val p) <= 1000001 -> Rabs (val r) <= 1000001 -> Rabs (val p') <= 2 -> Rabs (val r') <= 2 ->
    val x0 + val x1 + val x2 + val x3 + val x4 + val x5 = val p - val r + (val p' - val r') -> Rabs (val x0) + Rabs (val x1) + Rabs (val x2) + Rabs (val x3) + Rabs (val x4) + Rabs (val x5) = Rabs (val p) + Rabs (val r) + (Rabs (val p') + Rabs (val r')) ->
    apart_by (71 / 10 * q) (fadd (fsub p r) (fsub p' r')) s).
  { intros x0 x1 x2 x3 x4 x5 p r p' r' s H F0 F1 F2 F3 F4 F5 P R P' R' HP HR HP' HR' V A. apply four_terms; try assumption. rewrite <- V. apply (six_21 _ _ _ _ _ _ _ 2000008 H); try assumption; lra. }
  destruct (small _ _ ay wz Ay Wz) as [r1 r1b]. destruct (small _ _ az wy Az Wy) as [r2 r2b]. destruct (small _ _ az wx Az Wx) as [r3 r3b]. destruct (small _ _ ax wz Ax Wz) as [r4 r4b]. destruct (small _ _ ax wy Ax Wy) as [r5 r5b]. destruct (small _ _ ay wx Ay Wx) as [r6 r6b].
  destruct (small _ _ ay vz' Ay Vz) as [s1 s1b]. destruct (small _ _ az vy' Az Vy) as [s2 s2b]. destruct (small _ _ az vx' Az Vx) as [s3 s3b]. destruct (small _ _ ax vz' Ax Vz) as [s4 s4b]. destruct (small _ _ ax vy' Ax Vy) as [s5 s5b]. destruct (small _ _ ay vx' Ay Vx) as [s6 s6b].
  destruct (large _ _ by' wz By Wz) as [t1 t1b]. destruct (large _ _ bz wy Bz Wy) as [t2 t2b]. destruct (large _ _ bz wx Bz Wx) as [t3 t3b]. destruct (large _ _ bx wz Bx Wz) as [t4 t4b]. destruct (large _ _ bx wy Bx Wy) as [t5 t5b]. destruct (large _ _ by' wx By Wx) as [t6 t6b].
  assert (NF : forall x, finite x -> finite (fneg x)) by (intros x F; apply (neg_term x F)).
  unfold tboth, vboth, flie_bracket, fcross, fvadd. cbn [frot_part ftrans_part fx fy fz].
  split; (split; [|split]).
  - eapply rot; [exact R0|..]; auto; rewrite ?fneg_val, ?Rabs_Ropp, ?Z0, ?Z1, ?Z2, ?Z3, ?Z4, ?Z5, ?Rabs_R0; ring.
  - eapply rot; [exact R1|..]; auto; rewrite ?fneg_val, ?Rabs_Ropp, ?Z0, ?Z1, ?Z2, ?Z3, ?Z4, ?Z5, ?Rabs_R0; ring.
  - eapply rot; [exact R2|..]; auto; rewrite ?fneg_val, ?Rabs_Ropp, ?Z0, ?Z1, ?Z2, ?Z3, ?Z4, ?Z5, ?Rabs_R0; ring.
  - eapply tr; [exact T0|..]; auto; rewrite ?fneg_val, ?Rabs_Ropp, ?Z0, ?Z1, ?Z2, ?Z3, ?Z4, ?Z5, ?Rabs_R0; ring.
  - eapply tr; [exact T1|..]; auto; rewrite ?fneg_val, ?Rabs_Ropp, ?Z0, ?Z1, ?Z2, ?Z3, ?Z4, ?Z5, ?Rabs_R0; ring.
  - eapply tr; [exact T2|..]; auto; rewrite ?fneg_val, ?Rabs_Ropp, ?Z0, ?Z1, ?Z2, ?Z3, ?Z4, ?Z5, ?Rabs_R0; ring.
Qed.
Lemma pair_tests a b : sound6 a -> tfinite b -> twithin 1 b -> passes (se3_algebra_agrees a b) /\ se3_anticommutes a b = true.
Proof.
  intros A B C. split.
  - split; [apply some_algebra_agrees|]. intros c (alt & M & ->). pose proof (rows_21 a b alt A B C M) as ((X & Y & Z) & (X' & Y' & Z')).
    assert (K : forall x y, apart_by (71 / 10 * q) x y -> finite (fsub x y) /\ Rabs (val (fsub x y)) <= 99 / 10 ^ 11).
    { intros x y H. destruct (close_sub x y _ H) as [F N]; [unfold q; replace (2 ^ 20) with 1048576 by ring; lra|]. split; [exact F|]. unfold q in N. lra. }
    apply is_zero_true. unfold ftcoords, ftsub, fcoords, fvsub. cbn [frot_part ftrans_part fx fy fz app]. repeat (apply Forall_cons; [apply K; assumption|]). apply Forall_nil.
  - destruct A as ((A1 & A2 & _) & A3 & A4), C as [C1 C2]. apply small_checks; [split; assumption|exact B|split|split]; cbn [frot_part ftrans_part]; eapply within_big; try eassumption; lra.
Qed.
