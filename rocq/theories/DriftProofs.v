(** Proofs about compositions in double precision. *)
From Coq Require Import Psatz.
From Flocq Require Import Core BinarySingleNaN.
From Verif Require Import Cpp FloatModel FloatSpec FloatProofs NrmSpec NrmProofs LenProofs Vec RotSpec RotProofs CoeffProofs DriftModel DriftSpec.
Local Open Scope R_scope.

(** ** Frobenius norm *)
Definition row0 (m : mat3) : vec3 := V3 (m00 m) (m01 m) (m02 m).
Definition row1 (m : mat3) : vec3 := V3 (m10 m) (m11 m) (m12 m).
Definition row2 (m : mat3) : vec3 := V3 (m20 m) (m21 m) (m22 m).
Definition sq (m : mat3) : R := norm2 (row0 m) + norm2 (row1 m) + norm2 (row2 m).
Lemma size_sq m : size m = sqrt (sq m).
Proof. unfold size, sq, norm2, dot, row0, row1, row2. cbn [vx vy vz]. f_equal. ring. Qed.
Lemma sq_pos m : 0 <= sq m.
Proof. unfold sq. pose proof (norm2_nonneg (row0 m)). pose proof (norm2_nonneg (row1 m)). pose proof (norm2_nonneg (row2 m)). lra. Qed.
Lemma size_pos m : 0 <= size m.
Proof. rewrite size_sq. apply sqrt_pos. Qed.
Lemma size_sqr m : size m * size m = sq m.
Proof. rewrite size_sq. apply sqrt_sqrt, sq_pos. Qed.
Lemma size_rows m : size m = norm (V3 (norm (row0 m)) (norm (row1 m)) (norm (row2 m))).
Proof. rewrite size_sq. unfold norm at 1. f_equal. unfold sq, norm2 at 4, dot. cbn [vx vy vz]. rewrite !norm_sqr. reflexivity. Qed.
Lemma norm_mono v w : Rabs (vx v) <= vx w -> Rabs (vy v) <= vy w -> Rabs (vz v) <= vz w -> norm v <= norm w.
Proof.
  intros X Y Z. unfold norm. apply sqrt_le_1; try apply norm2_nonneg. unfold norm2, dot. apply Rabs_le_inv in X, Y, Z. nra.
Qed.
Lemma size_mono a b : Rabs (m00 a) <= m00 b -> Rabs (m01 a) <= m01 b -> Rabs (m02 a) <= m02 b ->
  Rabs (m10 a) <= m10 b -> Rabs (m11 a) <= m11 b -> Rabs (m12 a) <= m12 b ->
  Rabs (m20 a) <= m20 b -> Rabs (m21 a) <= m21 b -> Rabs (m22 a) <= m22 b -> size a <= size b.
Proof.
  intros. rewrite !size_rows. apply norm_mono; cbn [vx vy vz]; rewrite Rabs_right by (apply Rle_ge, norm_nonneg); apply norm_mono; cbn [row0 row1 row2 vx vy vz]; assumption.
Qed.
Lemma size_triangle a b : size (madd a b) <= size a + size b.
Proof.
  rewrite !size_rows. eapply Rle_trans; [|apply norm_triangle]. unfold vadd. cbn [vx vy vz].
  apply norm_mono; cbn [vx vy vz]; rewrite Rabs_right by (apply Rle_ge, norm_nonneg);
    [apply (norm_triangle (row0 a) (row0 b))|apply (norm_triangle (row1 a) (row1 b))|apply (norm_triangle (row2 a) (row2 b))].
Qed.
Lemma size_scale k m : size (mscale k m) = Rabs k * size m.
Proof.
  rewrite !size_sq. rewrite <- sqrt_Rsqr_abs, <- sqrt_mult_alt by apply Rle_0_sqr. f_equal. unfold sq, norm2, dot, row0, row1, row2, mscale, Rsqr. cbn [vx vy vz m00 m01 m02 m10 m11 m12 m20 m21 m22]. ring.
Qed.
Lemma size_mtrans m : size (mtrans m) = size m.
Proof. unfold size, mtrans. cbn [m00 m01 m02 m10 m11 m12 m20 m21 m22]. f_equal. ring. Qed.
Lemma norm_mvec m v : norm (mvec m v) <= size m * norm v.
Proof.
  apply norm_le_sqr; [apply Rmult_le_pos; [apply size_pos|apply norm_nonneg]|].
  replace (size m * norm v * (size m * norm v)) with (size m * size m * (norm v * norm v)) by ring. rewrite size_sqr, norm_sqr. unfold sq.
  assert (C : forall r, dot r v * dot r v <= norm2 r * norm2 v).
  { intro r. pose proof (norm2_nonneg (cross r v)) as H. rewrite lagrange in H. lra. }
  pose proof (C (row0 m)). pose proof (C (row1 m)). pose proof (C (row2 m)).
  replace (norm2 (mvec m v)) with (dot (row0 m) v * dot (row0 m) v + dot (row1 m) v * dot (row1 m) v + dot (row2 m) v * dot (row2 m) v); [lra|].
  unfold norm2, dot, mvec, row0, row1, row2. cbn [vx vy vz]. ring.
Qed.
Definition col (m : mat3) (k : nat) : vec3 := match k with 0%nat => V3 (m00 m) (m10 m) (m20 m) | 1%nat => V3 (m01 m) (m11 m) (m21 m) | _ => V3 (m02 m) (m12 m) (m22 m) end.
Lemma size_mmul a b : size (mmul a b) <= size a * size b.
Proof.
  rewrite <- (size_mtrans (mmul a b)), <- (size_mtrans b). rewrite (size_rows (mtrans (mmul a b))), (size_rows (mtrans b)).
  assert (E : forall v, norm (vscale (size a) v) = size a * norm v) by (intro v; rewrite norm_scale, Rabs_right by (apply Rle_ge, size_pos); reflexivity).
  rewrite <- E. apply norm_mono; cbn [vscale vx vy vz]; rewrite Rabs_right by (apply Rle_ge, norm_nonneg).
  - change (row0 (mtrans (mmul a b))) with (mvec a (row0 (mtrans b))). apply norm_mvec.
  - change (row1 (mtrans (mmul a b))) with (mvec a (row1 (mtrans b))). apply norm_mvec.
  - change (row2 (mtrans (mmul a b))) with (mvec a (row2 (mtrans b))). apply norm_mvec.
Qed.
(** Rotations keep it. *)
Lemma rot_norm r v : is_rotation r -> norm (mvec r v) = norm v.
Proof.
  intro H. apply rot_mtrans_l in H. unfold norm. f_equal. unfold norm2.
  replace (dot (mvec r v) (mvec r v)) with (dot v (mvec (mmul (mtrans r) r) v)) by vring. rewrite H, mvec_1. reflexivity.
Qed.
Lemma size_rot_l r m : is_rotation r -> size (mmul r m) = size m.
Proof.
  intro H. rewrite <- (size_mtrans (mmul r m)), <- (size_mtrans m), !size_rows. f_equal.
  change (row0 (mtrans (mmul r m))) with (mvec r (row0 (mtrans m))). change (row1 (mtrans (mmul r m))) with (mvec r (row1 (mtrans m))).
  change (row2 (mtrans (mmul r m))) with (mvec r (row2 (mtrans m))). rewrite !rot_norm by assumption. reflexivity.
Qed.
Lemma size_rot_r r m : is_rotation r -> size (mmul m r) = size m.
Proof. intro H. rewrite <- size_mtrans, mtrans_mmul, size_rot_l by (apply rot_mtrans, H). apply size_mtrans. Qed.
Lemma size_rot r : is_rotation r -> size r = sqrt 3.
Proof. intro H. rewrite <- (mmul_1_r r), size_rot_l by exact H. unfold size, mid. cbn [m00 m01 m02 m10 m11 m12 m20 m21 m22]. f_equal. ring. Qed.
Definition mabs (m : mat3) : mat3 :=
  M3 (Rabs (m00 m)) (Rabs (m01 m)) (Rabs (m02 m)) (Rabs (m10 m)) (Rabs (m11 m)) (Rabs (m12 m)) (Rabs (m20 m)) (Rabs (m21 m)) (Rabs (m22 m)).
Lemma size_mabs m : size (mabs m) = size m.
Proof. unfold size, mabs. cbn [m00 m01 m02 m10 m11 m12 m20 m21 m22]. rewrite <- !Rsqr_pow2, <- !Rsqr_abs. reflexivity. Qed.
Definition vabs (v : vec3) : vec3 := V3 (Rabs (vx v)) (Rabs (vy v)) (Rabs (vz v)).
Lemma norm_vabs v : norm (vabs v) = norm v.
Proof. unfold norm, norm2, dot, vabs. cbn [vx vy vz]. f_equal. change (?x * ?x) with (Rsqr x). rewrite <- ?Rsqr_abs. unfold Rsqr. pose proof (Rsqr_abs (vx v)). pose proof (Rsqr_abs (vy v)). pose proof (Rsqr_abs (vz v)). unfold Rsqr in *. lra. Qed.
Lemma apart_pos a b : 0 <= apart a b. Proof. apply size_pos. Qed.
Lemma apart_triangle a b c : apart a c <= apart a b + apart b c.
Proof.
  unfold apart. replace (madd a (mscale (-1) c)) with (madd (madd a (mscale (-1) b)) (madd b (mscale (-1) c))); [apply size_triangle|]. vring.
Qed.
Lemma apart_mtrans a b : apart (mtrans a) (mtrans b) = apart a b.
Proof. unfold apart. rewrite <- (size_mtrans (madd a _)). reflexivity. Qed.
Lemma size_apart a b : size a <= size b + apart a b.
Proof. unfold apart. replace a with (madd b (madd a (mscale (-1) b))) at 1; [apply size_triangle|]. destruct a, b. vsimpl. f_equal; ring. Qed.
Lemma entry_size m : Rabs (m00 m) <= size m /\ Rabs (m01 m) <= size m /\ Rabs (m02 m) <= size m /\ Rabs (m10 m) <= size m /\ Rabs (m11 m) <= size m /\ Rabs (m12 m) <= size m /\
  Rabs (m20 m) <= size m /\ Rabs (m21 m) <= size m /\ Rabs (m22 m) <= size m.
Proof.
  assert (G : forall x, x * x <= sq m -> Rabs x <= size m).
  { intros x H. rewrite size_sq. rewrite <- sqrt_Rsqr_abs. apply sqrt_le_1; [apply Rle_0_sqr|apply sq_pos|exact H]. }
  unfold sq, norm2, dot, row0, row1, row2 in G. cbn [vx vy vz] in G.
  repeat split; apply G; nra.
Qed.
Lemma entry_norm v : Rabs (vx v) <= norm v /\ Rabs (vy v) <= norm v /\ Rabs (vz v) <= norm v.
Proof.
  assert (G : forall x, x * x <= norm2 v -> Rabs x <= norm v).
  { intros x H. unfold norm. rewrite <- sqrt_Rsqr_abs. apply sqrt_le_1; [apply Rle_0_sqr|apply norm2_nonneg|exact H]. }
  unfold norm2, dot in G. repeat split; apply G; nra.
Qed.
(** Errors of factors. *)
Lemma apart_mmul a r b q : is_rotation r -> is_rotation q -> apart (mmul a b) (mmul r q) <= apart a r + apart b q + apart a r * apart b q.
Proof.
  intros R Q. unfold apart. set (d := madd a (mscale (-1) r)). set (e := madd b (mscale (-1) q)).
  replace (madd (mmul a b) (mscale (-1) (mmul r q))) with (madd (madd (mmul d q) (mmul r e)) (mmul d e)).
  - eapply Rle_trans; [apply size_triangle|]. apply Rplus_le_compat; [|apply size_mmul]. eapply Rle_trans; [apply size_triangle|].
    rewrite size_rot_r, size_rot_l by assumption. lra.
  - unfold d, e. destruct a, b, r, q. vsimpl. f_equal; ring.
Qed.

(** ** Rounding *)
Definition h : R := bpow radix2 (-1075).
Lemma h_pos : 0 < h. Proof. apply bpow_gt_0. Qed.
Lemma h_small : h <= / 2 ^ 1000.
Proof. unfold h. rewrite <- (bpow_pow 1000), <- bpow_opp. apply bpow_le. lia. Qed.
Lemma h_1 : h <= / 1000.
Proof. apply Rle_trans with (bpow radix2 (-10)); [apply bpow_le; lia|]. cbn. lra. Qed.
Lemma rd_any x : Rabs (rd x - x) <= u * Rabs x + h.
Proof.
  destruct (rd_general x) as (e & t & E & T & ->). pose proof tight_lt. replace (x * (1 + e) + t - x) with (e * x + t) by ring.
  eapply Rle_trans; [apply Rabs_triang|]. apply Rplus_le_compat; [|exact T]. rewrite Rabs_mult. apply Rmult_le_compat_r; [apply Rabs_pos|lra].
Qed.
Lemma rd_sum x y : fmt x -> fmt y -> Rabs (rd (x + y) - (x + y)) <= u * Rabs (x + y).
Proof.
  intros X Y. destruct (rd_plus x y X Y) as (e & E & ->). replace ((x + y) * (1 + e) - (x + y)) with (e * (x + y)) by ring.
  rewrite Rabs_mult. apply Rmult_le_compat_r; [apply Rabs_pos|exact E].
Qed.
Lemma u_num : u = / 9007199254740992.
Proof. unfold u. f_equal. lra. Qed.
Lemma big_1000 : 2 ^ 1000 * 8 <= 2 ^ 1003 /\ 1 <= 2 ^ 1000.
Proof. split; [|apply pow_R1_Rle; lra]. change 1003%nat with (1000 + 3)%nat. rewrite pow_add. lra. Qed.
Lemma no_overflow x : Rabs x <= 2 ^ 1000 * 8 -> ~ overflows x.
Proof.
  intro H. apply small_no_overflow. eapply Rle_lt_trans; [exact H|]. eapply Rle_lt_trans; [apply big_1000|]. apply Rlt_pow; [lra|]. apply Nat.ltb_lt. vm_compute. reflexivity.
Qed.
Lemma abs_dest x : - Rabs x <= x <= Rabs x.
Proof. pose proof (Rle_abs x). pose proof (Rle_abs (- x)). rewrite Rabs_Ropp in *. lra. Qed.
Lemma mul_error a b : finite a -> finite b -> Rabs (val a * val b) <= 2 ^ 1000 ->
  finite (fmul a b) /\ Rabs (val (fmul a b) - val a * val b) <= u * Rabs (val a * val b) + h.
Proof.
  intros A B H. destruct big_1000. destruct (fmul_val a b A B) as [F V]; [apply no_overflow; lra|]. split; [exact F|]. rewrite V. apply rd_any.
Qed.
Lemma add_error a b : finite a -> finite b -> Rabs (val a + val b) <= 2 ^ 1000 * 8 ->
  finite (fadd a b) /\ Rabs (val (fadd a b) - (val a + val b)) <= u * Rabs (val a + val b).
Proof.
  intros A B H. destruct (fadd_val a b A B) as [F V]; [apply no_overflow; lra|]. split; [exact F|]. rewrite V. apply rd_sum; apply val_fmt.
Qed.
Lemma sum3_error p0 p1 p2 q0 q1 q2 Q0 Q1 Q2 x : finite p0 -> finite p1 -> finite p2 ->
  Rabs q0 <= Q0 -> Rabs q1 <= Q1 -> Rabs q2 <= Q2 -> Q0 + Q1 + Q2 <= 2 ^ 1000 * 2 ->
  Rabs (val p0 - q0) <= u * Q0 + h -> Rabs (val p1 - q1) <= u * Q1 + h -> Rabs (val p2 - q2) <= u * Q2 + h ->
  fsum3 p0 p1 p2 x -> finite x /\ Rabs (val x - (q0 + q1 + q2)) <= 301 / 100 * u * (Q0 + Q1 + Q2) + 4 * h.
Proof.
  intros F0 F1 F2 A0 A1 A2 S E0 E1 E2. pose proof h_pos as Hp. pose proof h_1 as H1. destruct big_1000 as [_ Bg]. pose proof no_overflow as NO. rewrite u_num in *.
  apply Rabs_le_inv in A0, A1, A2, E0, E1, E2. set (big := 2 ^ 1000) in *. clearbody big.
  assert (two : forall a b (qa qb Qa Qb Ea Eb : R), finite a -> finite b -> -Qa <= qa <= Qa -> -Qb <= qb <= Qb -> Qa + Qb <= 2 * big -> 
    - Ea <= val a - qa <= Ea -> - Eb <= val b - qb <= Eb -> Ea + Eb <= big ->
    finite (fadd a b) /\ - (Ea + Eb + / 9007199254740992 * (Qa + Qb + Ea + Eb)) <= val (fadd a b) - (qa + qb) <= Ea + Eb + / 9007199254740992 * (Qa + Qb + Ea + Eb)).
  { intros a b qa qb Qa Qb Ea Eb Fa Fb Ha Hb Hs Ga Gb Hb'.
    assert (L : Rabs (val a + val b) <= Qa + Qb + Ea + Eb) by (apply Rabs_le; lra).
    assert (Lb : Rabs (val a + val b) <= big * 8) by lra.
    destruct (fadd_val a b Fa Fb) as [F V]; [apply NO, Lb|]. split; [exact F|].
    pose proof (rd_sum (val a) (val b) (val_fmt a) (val_fmt b)) as R. rewrite <- V, u_num in R. apply Rabs_le_inv in R. lra. }
  intro X. destruct X.
  - destruct (two p0 p1 q0 q1 Q0 Q1 _ _ F0 F1 A0 A1 ltac:(lra) E0 E1 ltac:(lra)) as [F E].
    destruct (two (fadd p0 p1) p2 (q0 + q1) q2 (Q0 + Q1) Q2 _ _ F F2 ltac:(lra) A2 ltac:(lra) E E2 ltac:(lra)) as [F' E']. split; [exact F'|]. apply Rabs_le. lra.
  - destruct (two p1 p2 q1 q2 Q1 Q2 _ _ F1 F2 A1 A2 ltac:(lra) E1 E2 ltac:(lra)) as [F E].
    destruct (two p0 (fadd p1 p2) q0 (q1 + q2) Q0 (Q1 + Q2) _ _ F0 F A0 ltac:(lra) ltac:(lra) E0 E ltac:(lra)) as [F' E']. split; [exact F'|]. apply Rabs_le. lra.
Qed.
Lemma dot_error a0 a1 a2 b0 b1 b2 x : finite a0 -> finite a1 -> finite a2 -> finite b0 -> finite b1 -> finite b2 ->
  Rabs (val a0) * Rabs (val b0) + Rabs (val a1) * Rabs (val b1) + Rabs (val a2) * Rabs (val b2) <= 2 ^ 1000 ->
  fdot a0 a1 a2 b0 b1 b2 x ->
  finite x /\ Rabs (val x - (val a0 * val b0 + val a1 * val b1 + val a2 * val b2)) <=
    301 / 100 * u * (Rabs (val a0) * Rabs (val b0) + Rabs (val a1) * Rabs (val b1) + Rabs (val a2) * Rabs (val b2)) + 4 * h.
Proof.
  intros. destruct big_1000 as [_ Bg]. rewrite <- !Rabs_mult in *.
  pose proof (Rabs_pos (val a0 * val b0)). pose proof (Rabs_pos (val a1 * val b1)). pose proof (Rabs_pos (val a2 * val b2)).
  destruct (mul_error a0 b0) as [F0 E0]; [assumption..|lra|]. destruct (mul_error a1 b1) as [F1 E1]; [assumption..|lra|]. destruct (mul_error a2 b2) as [F2 E2]; [assumption..|lra|].
  eapply sum3_error; [exact F0|exact F1|exact F2|apply Rle_refl|apply Rle_refl|apply Rle_refl|lra|assumption..].
Qed.

(** ** Products *)
Lemma fmmul_error a b c : mfinite a -> mfinite b -> size (mval a) <= 2 -> size (mval b) <= 2 -> fmmul a b c ->
  mfinite c /\ apart (mval c) (mmul (mval a) (mval b)) <= 301 / 100 * u * (size (mval a) * size (mval b)) + 12 * h.
Proof.
  intros (A0 & A1 & A2 & A3 & A4 & A5 & A6 & A7 & A8) (B0 & B1 & B2 & B3 & B4 & B5 & B6 & B7 & B8) SA SB (P0 & P1 & P2 & P3 & P4 & P5 & P6 & P7 & P8).
  pose proof (entry_size (mval a)) as EA. pose proof (entry_size (mval b)) as EB. cbn [mval m00 m01 m02 m10 m11 m12 m20 m21 m22] in EA, EB.
  destruct EA as (a0 & a1 & a2 & a3 & a4 & a5 & a6 & a7 & a8), EB as (b0 & b1 & b2 & b3 & b4 & b5 & b6 & b7 & b8).
  assert (G : forall x0 x1 x2 y0 y1 y2 z : f64, Rabs (val x0) <= size (mval a) -> Rabs (val x1) <= size (mval a) -> Rabs (val x2) <= size (mval a) ->
    Rabs (val y0) <= size (mval b) -> Rabs (val y1) <= size (mval b) -> Rabs (val y2) <= size (mval b) -> finite x0 -> finite x1 -> finite x2 -> finite y0 -> finite y1 -> finite y2 -> fdot x0 x1 x2 y0 y1 y2 z ->
    finite z /\ Rabs (val z - (val x0 * val y0 + val x1 * val y1 + val x2 * val y2)) <= 301 / 100 * u * (Rabs (val x0) * Rabs (val y0) + Rabs (val x1) * Rabs (val y1) + Rabs (val x2) * Rabs (val y2)) + 4 * h).
  { intros x0 x1 x2 y0 y1 y2 z X0 X1 X2 Y0 Y1 Y2 ? ? ? ? ? ? D. apply dot_error; try assumption.
    pose proof (Rabs_pos (val x0)). pose proof (Rabs_pos (val x1)). pose proof (Rabs_pos (val x2)). pose proof (Rabs_pos (val y0)). pose proof (Rabs_pos (val y1)). pose proof (Rabs_pos (val y2)).
    apply Rle_trans with (2 ^ 4); [|apply Rle_pow; [lra|lia]].
    assert (Rabs (val x0) * Rabs (val y0) <= 2 * 2) by (apply Rmult_le_compat; lra). assert (Rabs (val x1) * Rabs (val y1) <= 2 * 2) by (apply Rmult_le_compat; lra).
    assert (Rabs (val x2) * Rabs (val y2) <= 2 * 2) by (apply Rmult_le_compat; lra). lra. }
  apply G in P0, P1, P2, P3, P4, P5, P6, P7, P8; try assumption.
  destruct P0, P1, P2, P3, P4, P5, P6, P7, P8. split; [repeat split; assumption|].
  set (T := madd (mscale (301 / 100 * u) (mmul (mabs (mval a)) (mabs (mval b)))) (mscale (4 * h) (M3 1 1 1 1 1 1 1 1 1))).
  apply Rle_trans with (size T).
  - apply size_mono; unfold T, mval, mabs, mmul, madd, mscale; cbn [m00 m01 m02 m10 m11 m12 m20 m21 m22];
      rewrite ?Rmult_1_r; match goal with H : Rabs ?x <= ?y |- Rabs ?x' <= ?y => replace x' with x by ring; exact H end.
  - eapply Rle_trans; [apply size_triangle|]. rewrite !size_scale. pose proof u_pos. pose proof h_pos. rewrite !Rabs_right by lra.
    replace (size (M3 1 1 1 1 1 1 1 1 1)) with 3.
    + apply Rplus_le_compat; [|lra]. apply Rmult_le_compat_l; [lra|]. rewrite <- (size_mabs (mval a)), <- (size_mabs (mval b)). apply size_mmul.
    + unfold size. cbn [m00 m01 m02 m10 m11 m12 m20 m21 m22]. replace (1 ^ 2 + 1 ^ 2 + 1 ^ 2 + 1 ^ 2 + 1 ^ 2 + 1 ^ 2 + 1 ^ 2 + 1 ^ 2 + 1 ^ 2) with (3 * 3) by ring. rewrite sqrt_square; lra.
Qed.
Lemma bound_pos {A} e (x : rexpr A) : 0 <= e -> 0 <= bound e x.
Proof. intro E. unfold bound. pose proof (pos_INR (givens x)). pose proof (pos_INR (products x)). pose proof u_pos. nra. Qed.
Lemma stands_pos e x : every (stands_for e) x -> 0 <= e.
Proof. induction x as [p|x IH y IH'|x IH]; cbn [every]; [intros (_ & _ & H); pose proof (apart_pos (mval (fst p)) (snd p)); lra|tauto|exact IH]. Qed.
Lemma sqrt3_le : sqrt 3 <= 17321 / 10000.
Proof. rewrite <- (sqrt_Rsqr (17321 / 10000)) by lra. apply sqrt_le_1; unfold Rsqr; lra. Qed.
Lemma h_u : 12 * h <= u / 10.
Proof. pose proof h_pos. unfold h, u. rewrite <- (bpow_pow 53), <- bpow_opp. apply Rle_trans with (bpow radix2 (-100) * 12); [rewrite Rmult_comm; apply Rmult_le_compat_r; [lra|apply bpow_le; lia]|].
  change (- Z.of_nat 53)%Z with (-53)%Z. replace (-53)%Z with (-100 + 47)%Z by lia. rewrite bpow_plus. pose proof (bpow_gt_0 radix2 (-100)).
  assert (bpow radix2 47 = 140737488355328) as -> by (cbn; lra). lra. Qed.
Lemma grow s b1 b2 k E1 E2 : 0 <= b1 -> 0 <= b2 -> 0 <= k -> s = b1 + b2 + k -> s <= 1 / 10 ->
  0 <= E1 <= b1 / (1 - b1) -> 0 <= E2 <= b2 / (1 - b2) -> E1 + E2 + E1 * E2 + k <= s / (1 - s).
Proof.
  intros B1 B2 K -> S H1 H2.
  assert (X1 : 1 + b1 / (1 - b1) = / (1 - b1)) by (field; lra). assert (X2 : 1 + b2 / (1 - b2) = / (1 - b2)) by (field; lra).
  assert (Y : (b1 + b2 + k) / (1 - (b1 + b2 + k)) = / (1 - (b1 + b2 + k)) - 1) by (field; lra). rewrite Y.
  assert (P : (1 + E1) * (1 + E2) <= / (1 - b1) * / (1 - b2)) by (apply Rmult_le_compat; lra).
  assert (Q : / (1 - b1) * / (1 - b2) <= / (1 - (b1 + b2))).
  { rewrite <- Rinv_mult. apply Rinv_le; [lra|]. nra. }
  assert (Z : / (1 - (b1 + b2)) + k <= / (1 - (b1 + b2 + k))).
  { apply (Rmult_le_reg_r ((1 - (b1 + b2)) * (1 - (b1 + b2 + k)))); [apply Rmult_lt_0_compat; lra|].
    replace (/ (1 - (b1 + b2 + k)) * ((1 - (b1 + b2)) * (1 - (b1 + b2 + k)))) with (1 - (b1 + b2)) by (field; lra).
    replace ((/ (1 - (b1 + b2)) + k) * ((1 - (b1 + b2)) * (1 - (b1 + b2 + k)))) with ((1 - (b1 + b2 + k)) + k * ((1 - (b1 + b2)) * (1 - (b1 + b2 + k)))) by (field; lra).
    assert ((1 - (b1 + b2)) * (1 - (b1 + b2 + k)) <= 1) by nra. nra. }
  nra.
Qed.
Lemma frac_small b : 0 <= b <= 1 / 10 -> 0 <= b / (1 - b) <= 10 / 9 * b.
Proof.
  intro B. assert (I : 0 < / (1 - b) <= 10 / 9).
  { split; [apply Rinv_0_lt_compat; lra|]. replace (10 / 9) with (/ (9 / 10)) by field. apply Rinv_le; lra. }
  unfold Rdiv at 1 2. split; [nra|]. rewrite Rmult_comm. apply Rmult_le_compat_r; lra.
Qed.
Lemma composed e x : every (stands_for e) x -> bound e x <= 1 / 10 -> is_rotation (exact_rotation (rmap snd x)) /\
  forall p, rotation_of (rmap fst x) p -> mfinite p /\ apart (mval p) (exact_rotation (rmap snd x)) <= bound e x / (1 - bound e x).
Proof.
  induction x as [[f r]|x IH y IH'|x IH]; cbn [every rmap exact_rotation]; intros H B.
  - destruct H as (F & R & A). cbn [fst snd] in *. split; [exact R|]. intros p P. inversion P; subst. split; [exact F|].
    unfold bound in *. cbn [givens products] in *. change (INR 1) with 1 in *. change (INR 0) with 0 in *. rewrite Rmult_1_l, Rmult_0_l, Rplus_0_r in *.
    pose proof (apart_pos (mval p) r). assert (E : 0 <= e <= 1 / 10) by lra. apply Rle_trans with (1 := A). unfold Rdiv. rewrite <- (Rmult_1_r e) at 1. apply Rmult_le_compat_l; [lra|].
    rewrite <- Rinv_1 at 1. apply Rinv_le; lra.
  - destruct H as [Hx Hy]. pose proof (stands_pos _ _ Hx) as E0. pose proof (bound_pos e x E0) as Px. pose proof (bound_pos e y E0) as Py. pose proof u_pos as U.
    assert (S : bound e (RProduct x y) = bound e x + bound e y + 11 * u).
    { unfold bound. cbn [givens products]. rewrite S_INR, !plus_INR. ring. }
    destruct (IH Hx) as [Rx Cx]; [lra|]. destruct (IH' Hy) as [Ry Cy]; [lra|]. split; [apply rot_mmul; assumption|].
    intros p P. inversion P as [|? ? a b ? Pa Pb M|]; subst. destruct (Cx _ Pa) as [Fa Ea]. destruct (Cy _ Pb) as [Fb Eb]. clear Cx Cy IH IH'.
    set (r := exact_rotation (rmap snd x)) in *. set (q := exact_rotation (rmap snd y)) in *.
    pose proof (frac_small (bound e x) ltac:(lra)). pose proof (frac_small (bound e y) ltac:(lra)).
    pose proof (size_apart (mval a) r) as Sa. pose proof (size_apart (mval b) q) as Sb. rewrite (size_rot r Rx) in Sa. rewrite (size_rot q Ry) in Sb. pose proof sqrt3_le.
    assert (Sa' : size (mval a) <= 18433 / 10000) by lra. assert (Sb' : size (mval b) <= 18433 / 10000) by lra.
    pose proof (size_pos (mval a)). pose proof (size_pos (mval b)).
    destruct (fmmul_error a b p Fa Fb ltac:(lra) ltac:(lra) M) as [F D]. split; [exact F|].
    eapply Rle_trans; [apply (apart_triangle _ (mmul (mval a) (mval b)))|].
    assert (K : apart (mval p) (mmul (mval a) (mval b)) <= 11 * u).
    { eapply Rle_trans; [exact D|]. pose proof h_u. assert (size (mval a) * size (mval b) <= 18433 / 10000 * (18433 / 10000)) by (apply Rmult_le_compat; lra).
      assert (301 / 100 * u * (size (mval a) * size (mval b)) <= 301 / 100 * u * (18433 / 10000 * (18433 / 10000))) by (apply Rmult_le_compat_l; lra). lra. }
    pose proof (apart_mmul (mval a) r (mval b) q Rx Ry) as PP. pose proof (apart_pos (mval a) r). pose proof (apart_pos (mval b) q).
    pose proof (grow (bound e (RProduct x y)) (bound e x) (bound e y) (11 * u) (apart (mval a) r) (apart (mval b) q) Px Py ltac:(lra) S B ltac:(lra) ltac:(lra)). lra.
  - destruct (IH H B) as [R C]. split; [apply rot_mtrans, R|]. intros p P. inversion P as [| |? a Pa]; subst. destruct (C _ Pa) as [F A]. split.
    + destruct F as (? & ? & ? & ? & ? & ? & ? & ? & ?). repeat split; assumption.
    + change (mval (fmtrans a)) with (mtrans (mval a)). rewrite apart_mtrans. exact A.
Qed.
Lemma composed_close e x p : every (stands_for e) x -> bound e x <= 1 / 10 -> rotation_of (rmap fst x) p ->
  mfinite p /\ is_rotation (exact_rotation (rmap snd x)) /\ apart (mval p) (exact_rotation (rmap snd x)) <= 10 / 9 * bound e x.
Proof.
  intros H B P. destruct (composed e x H B) as [R C]. destruct (C p P) as [F A]. split; [exact F|]. split; [exact R|].
  pose proof (frac_small (bound e x) (conj (bound_pos e x (stands_pos e x H)) B)). lra.
Qed.
Lemma one_product {A} (x : rexpr A) : givens x = S (products x).
Proof. induction x as [a|x IH y IH'|x IH]; cbn; lia. Qed.
Lemma some_rotation x : exists p, rotation_of x p.
Proof.
  induction x as [a|x [a A] y [b B]|x [a A]]; [exists a; constructor| |exists (fmtrans a); constructor; exact A].
  eexists. eapply rot_product; [exact A|exact B|]. instantiate (1 := FM _ _ _ _ _ _ _ _ _). unfold fmmul, fdot. cbn [f00 f01 f02 f10 f11 f12 f20 f21 f22].
  repeat split; apply sum_left.
Qed.

(** ** Vectors *)
Lemma fmvec_error a v w : mfinite a -> vfinite v -> size (mval a) <= 2 -> norm (vval v) <= 2 ^ 995 -> fmvec a v w ->
  vfinite w /\ norm (vsub (vval w) (mvec (mval a) (vval v))) <= 301 / 100 * u * (size (mval a) * norm (vval v)) + 7 * h.
Proof.
  intros (A0 & A1 & A2 & A3 & A4 & A5 & A6 & A7 & A8) (V0 & V1 & V2) SA SV (P0 & P1 & P2).
  pose proof (entry_size (mval a)) as EA. pose proof (entry_norm (vval v)) as EV. cbn [mval m00 m01 m02 m10 m11 m12 m20 m21 m22 vval vx vy vz] in EA, EV.
  destruct EA as (a0 & a1 & a2 & a3 & a4 & a5 & a6 & a7 & a8), EV as (v0 & v1 & v2).
  assert (Bg : 2 ^ 995 * 6 <= 2 ^ 1000) by (change 1000%nat with (995 + 5)%nat; rewrite pow_add; assert (1 <= 2 ^ 995) by (apply pow_R1_Rle; lra); lra).
  assert (G : forall x0 x1 x2 z : f64, Rabs (val x0) <= size (mval a) -> Rabs (val x1) <= size (mval a) -> Rabs (val x2) <= size (mval a) ->
    finite x0 -> finite x1 -> finite x2 -> fdot x0 x1 x2 (fx v) (fy v) (fz v) z ->
    finite z /\ Rabs (val z - (val x0 * val (fx v) + val x1 * val (fy v) + val x2 * val (fz v))) <=
      301 / 100 * u * (Rabs (val x0) * Rabs (val (fx v)) + Rabs (val x1) * Rabs (val (fy v)) + Rabs (val x2) * Rabs (val (fz v))) + 4 * h).
  { intros x0 x1 x2 z X0 X1 X2 ? ? ? D. apply dot_error; try assumption.
    pose proof (Rabs_pos (val x0)). pose proof (Rabs_pos (val x1)). pose proof (Rabs_pos (val x2)). pose proof (Rabs_pos (val (fx v))). pose proof (Rabs_pos (val (fy v))). pose proof (Rabs_pos (val (fz v))).
    assert (Rabs (val x0) * Rabs (val (fx v)) <= 2 * 2 ^ 995) by (apply Rmult_le_compat; lra). assert (Rabs (val x1) * Rabs (val (fy v)) <= 2 * 2 ^ 995) by (apply Rmult_le_compat; lra).
    assert (Rabs (val x2) * Rabs (val (fz v)) <= 2 * 2 ^ 995) by (apply Rmult_le_compat; lra). lra. }
  apply G in P0, P1, P2; try assumption. destruct P0, P1, P2. split; [repeat split; assumption|].
  set (T := vadd (vscale (301 / 100 * u) (mvec (mabs (mval a)) (vabs (vval v)))) (vscale (4 * h) (V3 1 1 1))).
  apply Rle_trans with (norm T).
  - apply norm_mono; unfold T, mval, mabs, vabs, vval, mvec, vadd, vsub, vscale; cbn [m00 m01 m02 m10 m11 m12 m20 m21 m22 vx vy vz]; rewrite ?Rmult_1_r; assumption.
  - eapply Rle_trans; [apply norm_triangle|]. rewrite !norm_scale. pose proof u_pos. pose proof h_pos. rewrite !Rabs_right by lra.
    apply Rplus_le_compat.
    + apply Rmult_le_compat_l; [lra|]. rewrite <- (size_mabs (mval a)), <- (norm_vabs (vval v)). apply norm_mvec.
    + replace (norm (V3 1 1 1)) with (sqrt 3); [pose proof sqrt3_le; nra|]. unfold norm, norm2, dot. cbn [vx vy vz]. f_equal. ring.
Qed.
Lemma fvadd_error v w : vfinite v -> vfinite w -> norm (vval v) <= 2 ^ 1000 -> norm (vval w) <= 2 ^ 1000 ->
  vfinite (fvadd v w) /\ norm (vsub (vval (fvadd v w)) (vadd (vval v) (vval w))) <= u * norm (vadd (vval v) (vval w)).
Proof.
  intros (V0 & V1 & V2) (W0 & W1 & W2) SV SW. pose proof (entry_norm (vval v)) as EV. pose proof (entry_norm (vval w)) as EW. cbn [vval vx vy vz] in EV, EW.
  destruct big_1000 as [_ Bg].
  assert (G : forall a b, finite a -> finite b -> Rabs (val a) <= norm (vval v) -> Rabs (val b) <= norm (vval w) -> finite (fadd a b) /\ Rabs (val (fadd a b) - (val a + val b)) <= u * Rabs (val a + val b)).
  { intros a b A B HA HB. apply add_error; try assumption. eapply Rle_trans; [apply Rabs_triang|]. lra. }
  destruct EV as (v0 & v1 & v2), EW as (w0 & w1 & w2).
  destruct (G (fx v) (fx w)); try assumption. destruct (G (fy v) (fy w)); try assumption. destruct (G (fz v) (fz w)); try assumption. split; [repeat split; assumption|].
  replace (u * norm (vadd (vval v) (vval w))) with (norm (vscale u (vabs (vadd (vval v) (vval w))))).
  - apply norm_mono; cbn [vsub vadd vval fvadd fx fy fz vscale vabs vx vy vz]; assumption.
  - rewrite norm_scale, norm_vabs. pose proof u_pos. rewrite Rabs_right by lra. reflexivity.
Qed.
Lemma norm_apart a r v : norm (vsub (mvec a v) (mvec r v)) <= apart a r * norm v.
Proof. replace (vsub (mvec a v) (mvec r v)) with (mvec (madd a (mscale (-1) r)) v) by vring. apply norm_mvec. Qed.
Lemma norm_near v w : norm v <= norm w + norm (vsub v w).
Proof. replace v with (vadd w (vsub v w)) at 1; [apply norm_triangle|]. vring. Qed.
Lemma rotated a r E v w : mfinite a -> is_rotation r -> apart (mval a) r <= E -> E <= 1 / 9 -> vfinite v -> norm (vval v) <= 2 ^ 995 -> fmvec a v w ->
  vfinite w /\ norm (vsub (vval w) (mvec r (vval v))) <= (E + 6 * u) * norm (vval v) + 7 * h.
Proof.
  intros Fa R A HE Fv Nv M. pose proof (size_apart (mval a) r) as S. rewrite (size_rot r R) in S. pose proof sqrt3_le. pose proof (norm_nonneg (vval v)) as N0. pose proof u_pos.
  assert (S' : size (mval a) <= 18433 / 10000) by lra.
  destruct (fmvec_error a v w Fa Fv ltac:(lra) Nv M) as [F D]. split; [exact F|].
  eapply Rle_trans; [apply (norm_triangle_sub _ (mvec (mval a) (vval v)))|]. pose proof (norm_apart (mval a) r (vval v)) as P.
  assert (size (mval a) * norm (vval v) <= 18433 / 10000 * norm (vval v)) by (apply Rmult_le_compat_r; lra).
  assert (apart (mval a) r * norm (vval v) <= E * norm (vval v)) by (apply Rmult_le_compat_r; lra).
  assert (301 / 100 * u * (size (mval a) * norm (vval v)) <= 301 / 100 * u * (18433 / 10000 * norm (vval v))) by (apply Rmult_le_compat_l; lra).
  assert (0 <= u * norm (vval v)) by (apply Rmult_le_pos; lra). lra.
Qed.
Lemma composed_rotates e x p v w : every (stands_for e) x -> bound e x <= 1 / 10 -> rotation_of (rmap fst x) p ->
  vfinite v -> norm (vval v) <= 2 ^ 995 -> fmvec p v w ->
  vfinite w /\ norm (vsub (vval w) (mvec (exact_rotation (rmap snd x)) (vval v))) <= (10 / 9 * bound e x + 6 * u) * norm (vval v) + 7 * h.
Proof.
  intros H B P Fv Nv M. destruct (composed_close e x p H B P) as (F & R & A). apply (rotated p); try assumption. lra.
Qed.

(** ** Poses *)
Lemma pose_rotation x p : pose_of x p -> rotation_of (rmap frot x) (frot p).
Proof.
  induction 1 as [a|x y a b c _ IH _ IH' [M _]|x a c _ IH [E _]]; cbn [rmap].
  - constructor.
  - eapply rot_product; eassumption.
  - rewrite E. constructor. exact IH.
Qed.
Lemma rmap_rmap {A B C} (f : A -> B) (g : B -> C) x : rmap g (rmap f x) = rmap (fun a => g (f a)) x.
Proof. induction x as [a|x IH y IH'|x IH]; cbn [rmap]; congruence. Qed.
Lemma rmap_ext {A B} (f g : A -> B) x : (forall a, f a = g a) -> rmap f x = rmap g x.
Proof. intro H. induction x as [a|x IH y IH'|x IH]; cbn [rmap]; congruence. Qed.
Lemma exact_pose_rotation x : fst (exact_pose x) = exact_rotation (rmap fst x).
Proof.
  induction x as [a|x IH y IH'|x IH]; cbn [exact_pose exact_rotation rmap]; [reflexivity| |]; destruct (exact_pose x) as [r t]; [destruct (exact_pose y) as [q s]|]; cbn [fst] in *; congruence.
Qed.
Lemma bound_rmap {A B} e (f : A -> B) x : bound e (rmap f x) = bound e x.
Proof. unfold bound. assert (givens (rmap f x) = givens x /\ products (rmap f x) = products x) as [-> ->]; [|reflexivity]. induction x; cbn; intuition congruence. Qed.
Definition rotations (x : rexpr given) : rexpr (fmat * mat3) := rmap (fun g => (frot (g_pose g), g_rotation g)) x.
Lemma every_rotations e x : every (pose_stands_for e) x -> every (stands_for e) (rotations x).
Proof. unfold rotations. induction x as [g|x IH y IH'|x IH]; cbn [every rmap]; [intros (H & _); exact H|tauto|exact IH]. Qed.
Lemma bound_operations {A} e (x : rexpr A) : 0 <= e -> bound e x <= INR (operations x) * (e + 11 * u).
Proof.
  intro E. unfold bound. pose proof u_pos. assert (givens x <= operations x)%nat by (induction x; cbn; lia). assert (products x <= operations x)%nat by (clear; induction x; cbn; lia).
  apply le_INR in H0, H1. apply (Rmult_le_compat_r e) in H0; [|exact E]. apply (Rmult_le_compat_r (11 * u)) in H1; lra.
Qed.
Lemma pose_rotation_close e x p : every (pose_stands_for e) x -> bound e x <= 1 / 10 -> pose_of (rmap g_pose x) p ->
  mfinite (frot p) /\ is_rotation (fst (exact_pose (rmap g_exact x))) /\ apart (mval (frot p)) (fst (exact_pose (rmap g_exact x))) <= 10 / 9 * bound e x.
Proof.
  intros H B P. apply pose_rotation in P. rewrite rmap_rmap in P. rewrite exact_pose_rotation, rmap_rmap.
  rewrite <- (bound_rmap e (fun g => (frot (g_pose g), g_rotation g)) x) in *.
  assert (E1 : rmap (fun a => fst (g_exact a)) x = rmap snd (rotations x)) by (unfold rotations; rewrite rmap_rmap; reflexivity).
  rewrite E1. apply composed_close; [apply every_rotations, H|exact B|]. unfold rotations. rewrite rmap_rmap. exact P.
Qed.
Lemma small_len : 10 ^ 6 * h <= u * / 2 ^ 900.
Proof.
  unfold h, u. rewrite <- (bpow_pow 900), <- (bpow_pow 53), <- !bpow_opp, <- bpow_plus. apply Rle_trans with (bpow radix2 20 * bpow radix2 (-1075)).
  - apply Rmult_le_compat_r; [apply bpow_ge_0|]. cbn. lra.
  - rewrite <- bpow_plus. apply bpow_le. lia.
Qed.
Lemma reach_big e x : every (pose_stands_for e) x -> / 2 ^ 900 <= reach x.
Proof.
  assert (0 < / 2 ^ 900) by (apply Rinv_0_lt_compat, pow_lt; lra).
  induction x as [g|x IH y IH'|x IH]; cbn [every reach]; [intros (_ & _ & _ & _ & L); exact L|intros [Hx Hy]; specialize (IH Hx); specialize (IH' Hy); lra|exact IH].
Qed.
Lemma exact_reach e x : every (pose_stands_for e) x -> is_rotation (fst (exact_pose (rmap g_exact x))) /\ norm (snd (exact_pose (rmap g_exact x))) <= reach x.
Proof.
  induction x as [g|x IH y IH'|x IH]; cbn [every rmap exact_pose reach].
  - intros ((_ & R & _) & _ & _ & L & _). split; [exact R|exact L].
  - intros [Hx Hy]. destruct (IH Hx) as [R L]. destruct (IH' Hy) as [Q M]. destruct (exact_pose (rmap g_exact x)) as [r t]. destruct (exact_pose (rmap g_exact y)) as [q s]. cbn [fst snd] in *.
    split; [apply rot_mmul; assumption|]. eapply Rle_trans; [apply norm_triangle|]. rewrite rot_norm by assumption. lra.
  - intros H. destruct (IH H) as [R L]. destruct (exact_pose (rmap g_exact x)) as [r t]. cbn [fst snd] in *. split; [apply rot_mtrans, R|].
    rewrite rot_norm by (apply rot_mtrans, R). rewrite norm_neg. exact L.
Qed.
Lemma nesting_1 {A} (x : rexpr A) : 1 <= INR (nesting x).
Proof. change 1 with (INR 1). apply le_INR. induction x; cbn; lia. Qed.
Lemma operations_1 {A} (x : rexpr A) : 1 <= INR (operations x).
Proof. change 1 with (INR 1). apply le_INR. induction x; cbn; lia. Qed.
Lemma weight_operations {A} e (x : rexpr A) : 0 <= e -> INR (operations x) * (e + 11 * u) <= weight e x.
Proof.
  intro E. unfold weight. pose proof (nesting_1 x). pose proof (operations_1 x). pose proof u_pos. rewrite Rmult_assoc.
  assert (0 <= INR (operations x) * (e + 11 * u)) by (apply Rmult_le_pos; lra). nra.
Qed.
Lemma weight_product {A} e (x y : rexpr A) : 0 <= e ->
  weight e x <= weight e (RProduct x y) /\ weight e y <= weight e (RProduct x y) /\
  forall lx ly, 0 <= lx -> 0 <= ly ->
    weight e x * lx + weight e y * ly + (INR (operations x) + 1) * (e + 11 * u) * ly + (e + 11 * u) * lx <= weight e (RProduct x y) * (lx + ly).
Proof.
  intro E. unfold weight. cbn [nesting operations]. rewrite S_INR, plus_INR. pose proof u_pos.
  assert (Mx : INR (nesting x) <= INR (Nat.max (nesting x) (nesting y))) by (apply le_INR; lia).
  assert (My : INR (nesting y) <= INR (Nat.max (nesting x) (nesting y))) by (apply le_INR; lia).
  pose proof (nesting_1 x). pose proof (nesting_1 y). pose proof (operations_1 x). pose proof (operations_1 y).
  set (I := INR (Nat.max (nesting x) (nesting y))) in *. set (Ix := INR (nesting x)) in *. set (Iy := INR (nesting y)) in *.
  set (Nx := INR (operations x)) in *. set (Ny := INR (operations y)) in *. set (w := e + 11 * u) in *. assert (0 <= w) by (unfold w; lra). clearbody I Ix Iy Nx Ny w.
  assert (A1 : Ix * Nx <= I * Nx) by (apply Rmult_le_compat_r; lra). assert (A2 : Iy * Ny <= I * Ny) by (apply Rmult_le_compat_r; lra).
  assert (A3 : 0 <= I * Nx) by nra. assert (A4 : 0 <= I * Ny) by nra. assert (A5 : Nx <= I * Nx) by nra.
  split; [|split].
  - apply Rmult_le_compat_r; [assumption|]. nra.
  - apply Rmult_le_compat_r; [assumption|]. nra.
  - intros lx ly Lx Ly. replace (I * (Nx + Ny + 1) * w * (lx + ly)) with (I * (Nx + Ny + 1) * (w * lx) + I * (Nx + Ny + 1) * (w * ly)) by ring.
    assert (P1 : 0 <= w * lx) by (apply Rmult_le_pos; lra). assert (P2 : 0 <= w * ly) by (apply Rmult_le_pos; lra).
    replace (Ix * Nx * w * lx + Iy * Ny * w * ly + (Nx + 1) * w * ly + w * lx) with ((Ix * Nx + 1) * (w * lx) + (Iy * Ny + Nx + 1) * (w * ly)) by ring.
    apply Rplus_le_compat; (apply Rmult_le_compat_r; [assumption|]); nra.
Qed.
Lemma weight_inverse {A} e (x : rexpr A) : 0 <= e ->
  weight e x + (INR (operations x) + 1) * (e + 11 * u) <= weight e (RInverse x).
Proof.
  intro E. unfold weight. cbn [nesting operations]. rewrite !S_INR. pose proof u_pos. pose proof (nesting_1 x). pose proof (operations_1 x).
  replace ((INR (nesting x) + 1) * (INR (operations x) + 1) * (e + 11 * u)) with (INR (nesting x) * INR (operations x) * (e + 11 * u) + (INR (operations x) + 1 + INR (nesting x)) * (e + 11 * u)) by ring.
  apply Rplus_le_compat_l. apply Rmult_le_compat_r; lra.
Qed.
Lemma posed e x : every (pose_stands_for e) x -> weight e x <= 1 / 10 -> reach x <= 2 ^ 900 ->
  forall p, pose_of (rmap g_pose x) p -> vfinite (ftrans p) /\ norm (vsub (vval (ftrans p)) (snd (exact_pose (rmap g_exact x)))) <= 2 * weight e x * reach x.
Proof.
  assert (Pw : 2 ^ 900 * 4 <= 2 ^ 995) by (change 995%nat with (900 + 95)%nat; rewrite pow_add; assert (1 <= 2 ^ 900) by (apply pow_R1_Rle; lra); nra).
  assert (Pv : 2 ^ 995 <= 2 ^ 1000) by (apply Rle_pow; [lra|lia]).
  assert (I9 : 0 < / 2 ^ 900) by (apply Rinv_0_lt_compat, pow_lt; lra). pose proof small_len as HS. pose proof h_pos as Hp. pose proof u_pos as U. pose proof u_small as U1.
  set (b9 := 2 ^ 900) in *. set (b5 := 2 ^ 995) in *. set (b10 := 2 ^ 1000) in *.
  induction x as [g|x IH y IH'|x IH]; cbn [every rmap]; intros H W L p P.
  - destruct H as ((_ & _ & A) & F & T & N & G). inversion P; subst. split; [exact F|]. cbn [exact_pose g_exact snd]. cbn [reach].
    assert (E0 : 0 <= e) by (cbn [fst snd] in A; pose proof (apart_pos (mval (frot (g_pose g))) (g_rotation g)); lra).
    eapply Rle_trans; [exact T|]. apply Rmult_le_compat_r; [lra|]. unfold weight. cbn [nesting operations]. change (INR 1) with 1. lra.
  - destruct H as [Hx Hy]. assert (E0 : 0 <= e) by (apply (stands_pos e (rotations x)), every_rotations, Hx).
    cbn [reach] in *. pose proof (reach_big _ _ Hx) as Lx. pose proof (reach_big _ _ Hy) as Ly. fold b9 in Lx, Ly.
    destruct (weight_product e x y E0) as (Wx & Wy & Wxy). specialize (Wxy (reach x) (reach y) ltac:(lra) ltac:(lra)).
    destruct (exact_reach _ _ Hx) as [R Nx]. destruct (exact_reach _ _ Hy) as [Q Ny].
    pose proof (weight_operations e x E0) as Ox. pose proof (bound_operations e x E0) as Bx. pose proof (bound_pos e x E0) as B0.
    inversion P as [|? ? a b ? Pa Pb (M & v & V & S)|]; subst.
    destruct (IH Hx ltac:(lra) ltac:(lra) a Pa) as [Fa Ta]. destruct (IH' Hy ltac:(lra) ltac:(lra) b Pb) as [Fb Tb].
    destruct (pose_rotation_close e x a Hx ltac:(lra) Pa) as (Ra & _ & Aa).
    cbn [exact_pose] in *. destruct (exact_pose (rmap g_exact x)) as [r t]. destruct (exact_pose (rmap g_exact y)) as [q s]. cbn [fst snd] in *.
    set (lx := reach x) in *. set (ly := reach y) in *. set (wx := weight e x) in *. set (wy := weight e y) in *. set (wxy := weight e (RProduct x y)) in *.
    assert (wx0 : 0 <= wx) by (pose proof (operations_1 x); assert (0 <= INR (operations x) * (e + 11 * u)) by (apply Rmult_le_pos; lra); lra).
    assert (wy0 : 0 <= wy) by (pose proof (operations_1 y); pose proof (weight_operations e y E0); assert (0 <= INR (operations y) * (e + 11 * u)) by (apply Rmult_le_pos; lra); unfold wy; lra).
    assert (Kx : wx * lx <= 1 / 10 * lx) by (apply Rmult_le_compat_r; lra). assert (Ky : wy * ly <= 1 / 10 * ly) by (apply Rmult_le_compat_r; lra).
    pose proof (norm_near (vval (ftrans a)) t) as Na. pose proof (norm_near (vval (ftrans b)) s) as Nb.
    assert (Na' : norm (vval (ftrans a)) <= 12 / 10 * lx) by lra. assert (Nb' : norm (vval (ftrans b)) <= 12 / 10 * ly) by lra.
    assert (HE : 10 / 9 * bound e x <= 1 / 9) by lra.
    destruct (rotated (frot a) r (10 / 9 * bound e x) (ftrans b) v Ra R Aa HE Fb ltac:(fold b5; lra) V) as [Fv Dv].
    pose proof (norm_near (vval v) (mvec r (vval (ftrans b)))) as Nv. rewrite rot_norm in Nv by exact R.
    assert (Dv' : norm (vsub (vval v) (mvec r (vval (ftrans b)))) <= 12 / 10 * (10 / 9 * bound e x + 6 * u) * ly + 7 * h).
    { eapply Rle_trans; [exact Dv|]. apply Rplus_le_compat_r. replace (12 / 10 * (10 / 9 * bound e x + 6 * u) * ly) with ((10 / 9 * bound e x + 6 * u) * (12 / 10 * ly)) by ring. apply Rmult_le_compat_l; lra. }
    set (bx := bound e x) in *. assert (K1 : bx * ly <= 1 / 10 * ly) by (apply Rmult_le_compat_r; lra). assert (K2 : u * ly <= / 1000000 * ly) by (apply Rmult_le_compat_r; lra).
    assert (K3 : u * / b9 <= u * ly) by (apply Rmult_le_compat_l; lra). assert (K4 : u * / b9 <= u * lx) by (apply Rmult_le_compat_l; lra).
    assert (Nv' : norm (vval v) <= 15 / 10 * ly) by lra.
    destruct (fvadd_error v (ftrans a) Fv Fa) as [Fs Ds]; [fold b10; lra|fold b10; lra|]. rewrite S. split; [exact Fs|].
    assert (Ds' : norm (vsub (vval (fvadd v (ftrans a))) (vadd (vval v) (vval (ftrans a)))) <= u * (15 / 10 * ly + 12 / 10 * lx)).
    { eapply Rle_trans; [exact Ds|]. apply Rmult_le_compat_l; [lra|]. eapply Rle_trans; [apply norm_triangle|]. lra. }
    eapply Rle_trans; [apply (norm_triangle_sub _ (vadd (vval v) (vval (ftrans a))))|].
    assert (D1 : norm (vsub (vadd (vval v) (vval (ftrans a))) (vadd (mvec r s) t)) <= norm (vsub (vval v) (mvec r s)) + norm (vsub (vval (ftrans a)) t)).
    { replace (vsub (vadd (vval v) (vval (ftrans a))) (vadd (mvec r s) t)) with (vadd (vsub (vval v) (mvec r s)) (vsub (vval (ftrans a)) t)) by vring. apply norm_triangle. }
    assert (D2 : norm (vsub (vval v) (mvec r s)) <= norm (vsub (vval v) (mvec r (vval (ftrans b)))) + norm (vsub (vval (ftrans b)) s)).
    { eapply Rle_trans; [apply (norm_triangle_sub _ (mvec r (vval (ftrans b))))|]. apply Rplus_le_compat_l.
      replace (vsub (mvec r (vval (ftrans b))) (mvec r s)) with (mvec r (vsub (vval (ftrans b)) s)) by vring. rewrite rot_norm by exact R. apply Rle_refl. }
    set (nx := INR (operations x)) in *. assert (K5 : bx * ly <= nx * (e + 11 * u) * ly) by (apply Rmult_le_compat_r; lra).
    assert (K6 : 11 * u * lx <= (e + 11 * u) * lx) by (apply Rmult_le_compat_r; lra). assert (K7 : 11 * u * ly <= (e + 11 * u) * ly) by (apply Rmult_le_compat_r; lra).
    replace ((nx + 1) * (e + 11 * u) * ly) with (nx * (e + 11 * u) * ly + (e + 11 * u) * ly) in Wxy by ring.
    replace (2 * wxy * (lx + ly)) with (2 * (wxy * (lx + ly))) by ring.
    assert (Q0 : 0 <= nx * (e + 11 * u) * ly) by (apply Rmult_le_pos; lra). lra.
  - assert (E0 : 0 <= e) by (apply (stands_pos e (rotations x)), every_rotations, H).
    cbn [reach] in *. pose proof (reach_big _ _ H) as Lx. fold b9 in Lx. pose proof (weight_inverse e x E0) as Wi.
    destruct (exact_reach _ _ H) as [R Nx]. pose proof (weight_operations e x E0) as Ox. pose proof (bound_operations e x E0) as Bx. pose proof (bound_pos e x E0) as B0.
    assert (O1 : 0 <= (INR (operations x) + 1) * (e + 11 * u)) by (pose proof (operations_1 x); apply Rmult_le_pos; lra).
    inversion P as [| |? a ? Pa (M & V)]; subst. destruct (IH H ltac:(lra) ltac:(lra) a Pa) as [Fa Ta].
    destruct (pose_rotation_close e x a H ltac:(lra) Pa) as (Ra & _ & Aa).
    cbn [exact_pose] in *. destruct (exact_pose (rmap g_exact x)) as [r t]. cbn [fst snd] in *.
    set (lx := reach x) in *. set (wx := weight e x) in *. set (wi := weight e (RInverse x)) in *.
    assert (wx0 : 0 <= wx) by (pose proof (operations_1 x); assert (0 <= INR (operations x) * (e + 11 * u)) by (apply Rmult_le_pos; lra); lra).
    assert (Kx : wx * lx <= 1 / 10 * lx) by (apply Rmult_le_compat_r; lra).
    pose proof (norm_near (vval (ftrans a)) t) as Na. assert (Na' : norm (vval (ftrans a)) <= 12 / 10 * lx) by lra.
    assert (HE : 10 / 9 * bound e x <= 1 / 9) by lra.
    assert (Vn : vval (fvneg (ftrans a)) = vneg (vval (ftrans a))) by (unfold vval, fvneg, vneg, fneg, val; cbn [fx fy fz vx vy vz]; rewrite !B2R_Bopp; reflexivity).
    assert (Fn : vfinite (fvneg (ftrans a))) by (destruct Fa as (? & ? & ?); unfold vfinite, fvneg, fneg, finite; cbn [fx fy fz]; rewrite !is_finite_Bopp; repeat split; assumption).
    assert (Rt : mfinite (fmtrans (frot a))) by (destruct Ra as (? & ? & ? & ? & ? & ? & ? & ? & ?); repeat split; assumption).
    destruct (rotated (fmtrans (frot a)) (mtrans r) (10 / 9 * bound e x) (fvneg (ftrans a)) (ftrans p) Rt (rot_mtrans _ R)) as [Fv Dv]; try assumption.
    { change (mval (fmtrans (frot a))) with (mtrans (mval (frot a))). rewrite apart_mtrans. exact Aa. }
    { rewrite Vn, norm_neg. fold b5. lra. }
    split; [exact Fv|]. rewrite Vn, norm_neg in Dv. eapply Rle_trans; [apply (norm_triangle_sub _ (mvec (mtrans r) (vneg (vval (ftrans a)))))|].
    assert (D2 : norm (vsub (mvec (mtrans r) (vneg (vval (ftrans a)))) (mvec (mtrans r) (vneg t))) = norm (vsub (vval (ftrans a)) t)).
    { replace (vsub (mvec (mtrans r) (vneg (vval (ftrans a)))) (mvec (mtrans r) (vneg t))) with (mvec (mtrans r) (vneg (vsub (vval (ftrans a)) t))) by vring.
      rewrite rot_norm by (apply rot_mtrans, R). apply norm_neg. }
    rewrite D2. set (bx := bound e x) in *.
    assert (Dv' : norm (vsub (vval (ftrans p)) (mvec (mtrans r) (vneg (vval (ftrans a))))) <= 12 / 10 * (10 / 9 * bx + 6 * u) * lx + 7 * h).
    { eapply Rle_trans; [exact Dv|]. apply Rplus_le_compat_r. replace (12 / 10 * (10 / 9 * bx + 6 * u) * lx) with ((10 / 9 * bx + 6 * u) * (12 / 10 * lx)) by ring. apply Rmult_le_compat_l; lra. }
    assert (K4 : u * / b9 <= u * lx) by (apply Rmult_le_compat_l; lra).
    set (nx := INR (operations x)) in *. assert (K5 : bx * lx <= nx * (e + 11 * u) * lx) by (apply Rmult_le_compat_r; lra).
    assert (K7 : 11 * u * lx <= (e + 11 * u) * lx) by (apply Rmult_le_compat_r; lra).
    assert (K8 : (wx + (nx + 1) * (e + 11 * u)) * lx <= wi * lx) by (apply Rmult_le_compat_r; lra).
    replace ((wx + (nx + 1) * (e + 11 * u)) * lx) with (wx * lx + nx * (e + 11 * u) * lx + (e + 11 * u) * lx) in K8 by ring.
    replace (2 * wi * lx) with (2 * (wi * lx)) by ring. assert (Q0 : 0 <= nx * (e + 11 * u) * lx) by (apply Rmult_le_pos; [apply Rmult_le_pos; [apply pos_INR|lra]|lra]). lra.
Qed.
