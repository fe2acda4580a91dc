(** The adjoint matrix of a pose in double precision. *)
From Coq Require Import Reals Lra Lia List.
From Flocq Require Import Core BinarySingleNaN.
From Verif Require Import Cpp FloatModel FloatSpec FloatProofs NrmSpec NrmProofs Vec RotSpec GeomModel RotProofs CoeffProofs LieProofs DriftModel DriftSpec DriftProofs SpinModel SpinSpec SpinProofs SpinProofs3 TwistModel FpsModel FmjModel FstModel FstSpec FstProofs FapModel FapSpec FapProofs FapProofs2 FapProofs3 FapProofs4 AdjModel AdjSpec AdjProofs AdjProofs2 AdjProofs4.
Import ListNotations.
Local Open Scope R_scope.

Lemma close_sub x y e : apart_by e x y -> 0 <= e <= / 2 ^ 20 -> finite (fsub x y) /\ Rabs (val (fsub x y)) <= 1001 / 1000 * e.
Proof.
  intros (X & Y & D) E. assert (/ 2 ^ 20 <= 1) by (rewrite <- Rinv_1; apply Rinv_le_contravar; [lra|apply pow_R1_Rle; lra]). destruct big_1000. destruct (sub_error x y X Y) as [F N]; [lra|]. split; [exact F|].
  pose proof (abs_near _ _ _ _ N D) as A. assert (u * Rabs (val x - val y) <= / 1000 * e) by (apply Rmult_le_compat; [pose proof u_pos; lra|apply Rabs_pos|rewrite u_num; lra|exact D]). lra.
Qed.
Lemma se3_algebra_check a b B c : tfinite a -> tfinite b -> twithin B a -> twithin B b -> 0 <= B <= 400 -> se3_algebra_agrees a b c -> c = true.
Proof.
  intros Fa Fb Ba Bb Hb (alt & M & ->). assert (P : 400 <= 2 ^ 490) by (apply Rle_trans with (2 ^ 10); [lra|apply Rle_pow; [lra|lia]]).
  pose proof (rows_near a b B Fa Fb Ba Bb ltac:(lra) alt M) as ((X & Y & Z) & (X' & Y' & Z')).
  assert (E : 0 <= 40 * (u * bb B) + 12 * h <= 8 / 10 ^ 10).
  { unfold bb. assert (B * B <= 400 * 400) by (apply Rmult_le_compat; lra). assert (0 <= B * B) by (apply Rmult_le_pos; lra). pose proof h_pos. pose proof h_tiny'. assert (/ 10 ^ 60 <= / 10 ^ 20) by (apply Rinv_le_contravar; [apply pow_lt; lra|apply Rle_pow; [lra|lia]]). rewrite u_num. lra. }
  assert (K : forall x y, apart_by (40 * (u * bb B) + 12 * h) x y -> finite (fsub x y) /\ Rabs (val (fsub x y)) <= 99 / 10 ^ 11).
  { intros x y H. destruct (close_sub x y _ H) as [F N]; [lra|]. split; [exact F|]. lra. }
  apply is_zero_true. unfold ftcoords, ftsub, fcoords, fvsub. cbn [frot_part ftrans_part fx fy fz app]. repeat (apply Forall_cons; [apply K; assumption|]). apply Forall_nil.
Qed.
Lemma some_row6 a b v : exists w, frows6 a b v w.
Proof. unfold frows6, frow6. destruct (sum_exists [fmul (f00 a) (fx (frot_part v)); fmul (f01 a) (fy (frot_part v)); fmul (f02 a) (fz (frot_part v)); fmul (f00 b) (fx (ftrans_part v)); fmul (f01 b) (fy (ftrans_part v)); fmul (f02 b) (fz (ftrans_part v))]) as [x X].
  destruct (sum_exists [fmul (f10 a) (fx (frot_part v)); fmul (f11 a) (fy (frot_part v)); fmul (f12 a) (fz (frot_part v)); fmul (f10 b) (fx (ftrans_part v)); fmul (f11 b) (fy (ftrans_part v)); fmul (f12 b) (fz (ftrans_part v))]) as [y Y].
  destruct (sum_exists [fmul (f20 a) (fx (frot_part v)); fmul (f21 a) (fy (frot_part v)); fmul (f22 a) (fz (frot_part v)); fmul (f20 b) (fx (ftrans_part v)); fmul (f21 b) (fy (ftrans_part v)); fmul (f22 b) (fz (ftrans_part v))]) as [z Z].
  exists (FV x y z). auto.
Qed.
Lemma some_map6 m v : exists r, fmap6_times m v r.
Proof. destruct (some_row6 (top_left m) (top_right m) v) as [x X], (some_row6 (bottom_left m) (bottom_right m) v) as [y Y]. exists (FT x y). split; assumption. Qed.
Lemma some_algebra_agrees a b : exists c, se3_algebra_agrees a b c.
Proof. destruct (some_map6 (fse3_algebra_adjoint a) b) as [alt M]. eexists. exists alt. split; [exact M|reflexivity]. Qed.

(** ** Of a pose *)
Section Group.
Variables (g : fpose) (alg : ftan) (T W V : R).
Hypothesis (Fm : mfinite (frot g)) (Ft : vfinite (ftrans g)) (Fa : tfinite alg).
Hypothesis (Bt : vwithin T (ftrans g)) (Bw : vwithin W (frot_part alg)) (Bv : vwithin V (ftrans_part alg)).
Hypothesis (T0 : 0 <= T <= 2 ^ 300) (W0 : 0 <= W <= 2 ^ 300) (V0 : 0 <= V <= 2 ^ 300).
Definition entries_near_1 (m : fmat) : Prop := Forall (fun x => Rabs (val x) <= 101 / 100) (fcoefs m).
Hypothesis (Bm : entries_near_1 (frot g)).

Definition TW : R := T * W.
Lemma powers_300 : 2 ^ 990 = 2 ^ 90 * (2 ^ 300 * (2 ^ 300 * 2 ^ 300)) /\ 2 ^ 1000 = 1024 * 2 ^ 990 /\ 1000 <= 2 ^ 90 /\ 1000 <= 2 ^ 300.
Proof.
  split; [rewrite <- !pow_add; reflexivity|]. split; [change 1000%nat with (10 + 990)%nat; rewrite pow_add; lra|].
  split; (apply Rle_trans with (2 ^ 10); [lra|apply Rle_pow; [lra|lia]]).
Qed.
Lemma TW_bounds : 0 <= TW <= 2 ^ 990 / 1000 /\ 0 <= T <= 2 ^ 990 / 1000 /\ 0 <= W <= 2 ^ 990 / 1000 /\ 0 <= V <= 2 ^ 990 / 1000 /\ 1 <= 2 ^ 990 / 1000.
Proof.
  destruct powers_300 as (P & _ & Q & R). assert (A : 2 ^ 300 * 2 ^ 300 <= 2 ^ 990 / 1000). 
  { rewrite P. assert (1000 * (2 ^ 300 * (2 ^ 300 * 2 ^ 300)) <= 2 ^ 90 * (2 ^ 300 * (2 ^ 300 * 2 ^ 300))) by (apply Rmult_le_compat_r; [|exact Q]; repeat apply Rmult_le_pos; lra).
    assert (1 * (2 ^ 300 * 2 ^ 300) <= 2 ^ 300 * (2 ^ 300 * 2 ^ 300)) by (apply Rmult_le_compat_r; [apply Rmult_le_pos; lra|lra]). lra. }
  assert (B : 2 ^ 300 <= 2 ^ 300 * 2 ^ 300) by (rewrite <- (Rmult_1_r (2 ^ 300)) at 1; apply Rmult_le_compat_l; lra). unfold TW.
  assert (0 <= T * W <= 2 ^ 300 * 2 ^ 300) by (split; [apply Rmult_le_pos; lra|apply Rmult_le_compat; lra]). repeat split; lra.
Qed.
Lemma small_things : forall x, 0 <= x -> 0 <= u * x <= / 100000 * x /\ 0 <= h * x <= / 100000 * x /\ u * (u * x) <= / 100000 * (u * x) /\ u * (h * x) <= / 100000 * (h * x).
Proof.
  intros x X. pose proof u_pos. pose proof h_pos. pose proof h_tiny'. assert (H5 : h <= / 100000). { eapply Rle_trans; [eassumption|]. apply Rinv_le_contravar; [lra|]. apply Rle_trans with (10 ^ 5); [lra|apply Rle_pow; [lra|lia]]. }
  assert (U5 : u <= / 100000) by (rewrite u_num; lra). assert (0 <= u * x) by (apply Rmult_le_pos; lra). assert (0 <= h * x) by (apply Rmult_le_pos; lra).
  repeat split; try assumption; apply Rmult_le_compat_r; lra.
Qed.
Lemma h_5 : 0 < h <= / 100000 /\ u * h <= / 100000 * h.
Proof.
  pose proof h_pos. pose proof h_tiny'. assert (H5 : h <= / 100000). { eapply Rle_trans; [eassumption|]. apply Rinv_le_contravar; [lra|]. apply Rle_trans with (10 ^ 5); [lra|apply Rle_pow; [lra|lia]]. }
  split; [lra|]. apply Rmult_le_compat_r; [lra|rewrite u_num; lra].
Qed.
Lemma abs_mul x y A B : Rabs x <= A -> Rabs y <= B -> Rabs (x * y) <= A * B.
Proof. intros. rewrite Rabs_mult. apply Rmult_le_compat; try apply Rabs_pos; assumption. Qed.
(** A row of the matrix times a vector. *)
Lemma row_dot a0 a1 a2 b0 b1 b2 K x : finite a0 -> finite a1 -> finite a2 -> finite b0 -> finite b1 -> finite b2 ->
  Rabs (val a0) <= 101 / 100 -> Rabs (val a1) <= 101 / 100 -> Rabs (val a2) <= 101 / 100 -> Rabs (val b0) <= K -> Rabs (val b1) <= K -> Rabs (val b2) <= K -> 0 <= K <= 2 ^ 990 / 1000 -> fdot a0 a1 a2 b0 b1 b2 x ->
  nearly (913 / 100 * (u * K) + 4 * h) x (val a0 * val b0 + val a1 * val b1 + val a2 * val b2) /\ Rabs (val a0 * val b0 + val a1 * val b1 + val a2 * val b2) <= 303 / 100 * K.
Proof.
  intros F0 F1 F2 G0 G1 G2 A0 A1 A2 B0 B1 B2 HK D. destruct powers_300 as (_ & P & _).
  pose proof (abs_mul _ _ _ _ A0 B0) as M0. pose proof (abs_mul _ _ _ _ A1 B1) as M1. pose proof (abs_mul _ _ _ _ A2 B2) as M2. rewrite Rabs_mult in M0, M1, M2.
  destruct (dot_error a0 a1 a2 b0 b1 b2 x F0 F1 F2 G0 G1 G2) as [F E]; [lra|exact D|]. split.
  - split; [exact F|]. eapply Rle_trans; [exact E|]. pose proof u_pos. assert (SB : Rabs (val a0) * Rabs (val b0) + Rabs (val a1) * Rabs (val b1) + Rabs (val a2) * Rabs (val b2) <= 303 / 100 * K) by lra. set (S := Rabs (val a0) * _ + _ + _) in *. assert (301 / 100 * u * S <= 301 / 100 * u * (303 / 100 * K)) by (apply Rmult_le_compat_l; lra).
    destruct (small_things K (proj1 HK)) as (Q & _). lra.
  - pose proof (Rabs_triang (val a0 * val b0 + val a1 * val b1) (val a2 * val b2)). pose proof (Rabs_triang (val a0 * val b0) (val a1 * val b1)). rewrite !Rabs_mult in *. lra.
Qed.
(** The same as part of a row of six. *)
Lemma rot_row a0 a1 a2 b0 b1 b2 c0 c1 c2 K x : finite a0 -> finite a1 -> finite a2 -> finite b0 -> finite b1 -> finite b2 -> finite c0 -> finite c1 -> finite c2 ->
  Rabs (val a0) <= 101 / 100 -> Rabs (val a1) <= 101 / 100 -> Rabs (val a2) <= 101 / 100 -> Rabs (val b0) <= K -> Rabs (val b1) <= K -> Rabs (val b2) <= K -> 0 <= K <= 2 ^ 990 / 1000 ->
  fsum_of [fmul a0 b0; fmul a1 b1; fmul a2 b2; fmul (of_int 0) c0; fmul (of_int 0) c1; fmul (of_int 0) c2] x ->
  nearly (183 / 10 * (u * K) + 4 * h) x (val a0 * val b0 + val a1 * val b1 + val a2 * val b2).
Proof.
  intros F0 F1 F2 G0 G1 G2 H0 H1 H2 A0 A1 A2 B0 B1 B2 HK D. destruct powers_300 as (_ & P & _). destruct (small_things K (proj1 HK)) as (Q1 & Q2 & Q3 & Q4). destruct h_5 as [Q5 Q6].
  pose proof (nearly_mul a0 b0 _ F0 G0 (abs_mul _ _ _ _ A0 B0) ltac:(lra)) as N0. pose proof (nearly_mul a1 b1 _ F1 G1 (abs_mul _ _ _ _ A1 B1) ltac:(lra)) as N1. pose proof (nearly_mul a2 b2 _ F2 G2 (abs_mul _ _ _ _ A2 B2) ltac:(lra)) as N2.
  replace (val a0 * val b0 + val a1 * val b1 + val a2 * val b2) with (val a0 * val b0 + val a1 * val b1 + val a2 * val b2 + 0 + 0 + 0) by ring.
  eapply nearly_weaken; [apply (six_sum _ _ _ _ _ _ _ _ _ _ _ _ _ _ _ _ _ _ _ _ _ _ _ _ _ D N0 N1 N2 (zero_product _ H0) (zero_product _ H1) (zero_product _ H2) (abs_mul _ _ _ _ A0 B0) (abs_mul _ _ _ _ A1 B1) (abs_mul _ _ _ _ A2 B2) abs_zero abs_zero abs_zero)|]; lra.
Qed.
Lemma nearly_shift e f x q r : nearly e x q -> Rabs (q - r) <= f -> nearly (e + f) x r.
Proof. intros (F & E) D. split; [exact F|]. apply Rabs_le_inv in E, D. apply Rabs_le. lra. Qed.
Lemma times_near t x e m M K : finite t -> Rabs (val t) <= K -> nearly e x m -> Rabs m <= M -> K * (M + e) <= 2 ^ 990 -> nearly (u * (K * (M + e)) + h + K * e) (fmul t x) (val t * m) /\ Rabs (val t * m) <= K * M.
Proof.
  intros F A (X & E) B L. split; [|apply abs_mul; assumption]. eapply nearly_shift; [apply nearly_mul; [exact F|exact X|apply abs_mul; [exact A|apply (abs_near _ _ _ _ E B)]|exact L]|].
  replace (val t * val x - val t * m) with (val t * (val x - m)) by ring. apply abs_mul; assumption.
Qed.
Lemma cross_term t x m : finite t -> Rabs (val t) <= T -> nearly (913 / 100 * (u * W) + 4 * h) x m -> Rabs m <= 303 / 100 * W ->
  nearly (122 / 10 * (u * TW) + 5 * (h * T) + h) (fmul t x) (val t * m) /\ Rabs (val t * m) <= 303 / 100 * TW.
Proof.
  intros F A X M. destruct TW_bounds as (P0 & P1 & P2 & P3 & P4). destruct (small_things TW (proj1 P0)) as (Q1 & Q2 & Q3 & Q4). destruct (small_things T (proj1 P1)) as (R1 & R2 & R3 & R4).
  assert (E : T * (303 / 100 * W + (913 / 100 * (u * W) + 4 * h)) = 303 / 100 * TW + 913 / 100 * (u * TW) + 4 * (h * T)) by (unfold TW; ring).
  destruct (times_near t x _ m _ T F A X M) as [N B]; [rewrite E; lra|]. rewrite E in N. split; [|unfold TW; lra]. eapply nearly_weaken; [exact N|].
  replace (T * (913 / 100 * (u * W) + 4 * h)) with (913 / 100 * (u * TW) + 4 * (h * T)) by (unfold TW; ring). lra.
Qed.
Lemma cross_pair t x m s y n : finite t -> Rabs (val t) <= T -> nearly (913 / 100 * (u * W) + 4 * h) x m -> Rabs m <= 303 / 100 * W -> finite s -> Rabs (val s) <= T -> nearly (913 / 100 * (u * W) + 4 * h) y n -> Rabs n <= 303 / 100 * W ->
  nearly (306 / 10 * (u * TW) + 11 * (h * T) + 3 * h) (fsub (fmul t x) (fmul s y)) (val t * m - val s * n) /\ Rabs (val t * m - val s * n) <= 606 / 100 * TW.
Proof.
  intros F A X M G B Y N. destruct TW_bounds as (P0 & P1 & P2 & P3 & P4). destruct (small_things TW (proj1 P0)) as (Q1 & Q2 & Q3 & Q4). destruct (small_things T (proj1 P1)) as (R1 & R2 & R3 & R4). destruct h_5 as [H1 H2]. destruct powers_300 as (_ & P & _).
  destruct (cross_term t x m F A X M) as [N1 B1], (cross_term s y n G B Y N) as [N2 B2]. split.
  - eapply nearly_weaken; [apply (two_sub _ _ _ _ _ _ _ _ N1 N2 B1 B2); lra|]. lra.
  - unfold Rminus. pose proof (Rabs_triang (val t * m) (- (val s * n))) as Z. rewrite Rabs_Ropp in Z. lra.
Qed.
Lemma direct_entry t x m s y n z k : finite t -> Rabs (val t) <= T -> nearly (913 / 100 * (u * W) + 4 * h) x m -> Rabs m <= 303 / 100 * W -> finite s -> Rabs (val s) <= T -> nearly (913 / 100 * (u * W) + 4 * h) y n -> Rabs n <= 303 / 100 * W ->
  nearly (913 / 100 * (u * V) + 4 * h) z k -> Rabs k <= 303 / 100 * V ->
  nearly (368 / 10 * (u * TW) + 123 / 10 * (u * V) + 12 * (h * T) + 8 * h) (fadd (fsub (fmul t x) (fmul s y)) z) (val t * m - val s * n + k).
Proof.
  intros F A X M G B Y N Z K. destruct TW_bounds as (P0 & P1 & P2 & P3 & P4). destruct (small_things TW (proj1 P0)) as (Q1 & Q2 & Q3 & Q4). destruct (small_things T (proj1 P1)) as (R1 & R2 & R3 & R4). destruct (small_things V (proj1 P3)) as (S1 & S2 & S3 & S4). destruct h_5 as [H1 H2]. destruct powers_300 as (_ & P & _).
  destruct (cross_pair t x m s y n F A X M G B Y N) as [N1 B1]. eapply nearly_weaken; [apply (two_add _ _ _ _ _ _ _ _ N1 Z B1 K); lra|]. lra.
Qed.
(** An entry of the lower left block, and a term with it. *)
Lemma block_entry a0 a1 a2 b0 b1 b2 c : finite a0 -> finite a1 -> finite a2 -> finite b0 -> finite b1 -> finite b2 ->
  Rabs (val a0) * Rabs (val b0) + Rabs (val a1) * Rabs (val b1) + Rabs (val a2) * Rabs (val b2) <= 202 / 100 * T -> fdot a0 a1 a2 b0 b1 b2 c ->
  nearly (61 / 10 * (u * T) + 4 * h) c (val a0 * val b0 + val a1 * val b1 + val a2 * val b2) /\ Rabs (val a0 * val b0 + val a1 * val b1 + val a2 * val b2) <= 202 / 100 * T.
Proof.
  intros F0 F1 F2 G0 G1 G2 S D. destruct TW_bounds as (P0 & P1 & P2 & P3 & P4). destruct (small_things T (proj1 P1)) as (R1 & _). destruct powers_300 as (_ & P & _).
  destruct (dot_error a0 a1 a2 b0 b1 b2 c F0 F1 F2 G0 G1 G2) as [F E]; [lra|exact D|]. split.
  - split; [exact F|]. eapply Rle_trans; [exact E|]. pose proof u_pos. set (Q := Rabs (val a0) * _ + _ + _) in *. assert (301 / 100 * u * Q <= 301 / 100 * u * (202 / 100 * T)) by (apply Rmult_le_compat_l; lra). lra.
  - pose proof (Rabs_triang (val a0 * val b0 + val a1 * val b1) (val a2 * val b2)). pose proof (Rabs_triang (val a0 * val b0) (val a1 * val b1)). rewrite !Rabs_mult in *. lra.
Qed.
Lemma block_term c q w : nearly (61 / 10 * (u * T) + 4 * h) c q -> Rabs q <= 202 / 100 * T -> finite w -> Rabs (val w) <= W ->
  nearly (82 / 10 * (u * TW) + 5 * (h * W) + h) (fmul c w) (q * val w) /\ Rabs (q * val w) <= 202 / 100 * TW.
Proof.
  intros C Q F A. destruct TW_bounds as (P0 & P1 & P2 & P3 & P4). destruct (small_things TW (proj1 P0)) as (Q1 & Q2 & Q3 & Q4). destruct (small_things W (proj1 P2)) as (R1 & R2 & R3 & R4).
  assert (E : W * (202 / 100 * T + (61 / 10 * (u * T) + 4 * h)) = 202 / 100 * TW + 61 / 10 * (u * TW) + 4 * (h * W)) by (unfold TW; ring).
  destruct (times_near w c _ q _ W F A C Q) as [N B]; [rewrite E; lra|]. rewrite E in N. rewrite fmul_comm, (Rmult_comm q). split; [|unfold TW; lra]. eapply nearly_weaken; [exact N|].
  replace (W * (61 / 10 * (u * T) + 4 * h)) with (61 / 10 * (u * TW) + 4 * (h * W)) by (unfold TW; ring). lra.
Qed.
Lemma trans_row c0 c1 c2 q0 q1 q2 w0 w1 w2 a0 a1 a2 v0 v1 v2 x : nearly (61 / 10 * (u * T) + 4 * h) c0 q0 -> Rabs q0 <= 202 / 100 * T -> nearly (61 / 10 * (u * T) + 4 * h) c1 q1 -> Rabs q1 <= 202 / 100 * T -> nearly (61 / 10 * (u * T) + 4 * h) c2 q2 -> Rabs q2 <= 202 / 100 * T ->
  finite w0 -> Rabs (val w0) <= W -> finite w1 -> Rabs (val w1) <= W -> finite w2 -> Rabs (val w2) <= W ->
  finite a0 -> Rabs (val a0) <= 101 / 100 -> finite a1 -> Rabs (val a1) <= 101 / 100 -> finite a2 -> Rabs (val a2) <= 101 / 100 -> finite v0 -> Rabs (val v0) <= V -> finite v1 -> Rabs (val v1) <= V -> finite v2 -> Rabs (val v2) <= V ->
  fsum_of [fmul c0 w0; fmul c1 w1; fmul c2 w2; fmul a0 v0; fmul a1 v1; fmul a2 v2] x ->
  nearly (552 / 10 * (u * TW) + 184 / 10 * (u * V) + 16 * (h * W) + 7 * h) x (q0 * val w0 + q1 * val w1 + q2 * val w2 + val a0 * val v0 + val a1 * val v1 + val a2 * val v2).
Proof.
  intros C0 Q0 C1 Q1 C2 Q2 Fw0 Aw0 Fw1 Aw1 Fw2 Aw2 Fa0 Aa0 Fa1 Aa1 Fa2 Aa2 Fv0 Av0 Fv1 Av1 Fv2 Av2 D.
  destruct TW_bounds as (P0 & P1 & P2 & P3 & P4). destruct (small_things TW (proj1 P0)) as (K1 & K2 & K3 & K4). destruct (small_things W (proj1 P2)) as (R1 & R2 & R3 & R4). destruct (small_things V (proj1 P3)) as (S1 & S2 & S3 & S4). destruct h_5 as [H1 H2]. destruct powers_300 as (_ & P & _).
  destruct (block_term _ _ _ C0 Q0 Fw0 Aw0) as [N0 B0], (block_term _ _ _ C1 Q1 Fw1 Aw1) as [N1 B1], (block_term _ _ _ C2 Q2 Fw2 Aw2) as [N2 B2].
  pose proof (nearly_mul a0 v0 _ Fa0 Fv0 (abs_mul _ _ _ _ Aa0 Av0) ltac:(lra)) as N3. pose proof (nearly_mul a1 v1 _ Fa1 Fv1 (abs_mul _ _ _ _ Aa1 Av1) ltac:(lra)) as N4. pose proof (nearly_mul a2 v2 _ Fa2 Fv2 (abs_mul _ _ _ _ Aa2 Av2) ltac:(lra)) as N5.
  eapply nearly_weaken; [apply (six_sum _ _ _ _ _ _ _ _ _ _ _ _ _ _ _ _ _ _ _ _ _ _ _ _ _ D N0 N1 N2 N3 N4 N5 B0 B1 B2 (abs_mul _ _ _ _ Aa0 Av0) (abs_mul _ _ _ _ Aa1 Av1) (abs_mul _ _ _ _ Aa2 Av2))|]; lra.
Qed.
Lemma block_size x y p q : Rabs x <= T -> Rabs y <= T -> Rabs p <= 101 / 100 -> Rabs q <= 101 / 100 -> Rabs x * Rabs p + Rabs y * Rabs q <= 202 / 100 * T.
Proof.
  intros X Y P Q. assert (Rabs x * Rabs p <= T * (101 / 100)) by (apply Rmult_le_compat; try apply Rabs_pos; assumption). assert (Rabs y * Rabs q <= T * (101 / 100)) by (apply Rmult_le_compat; try apply Rabs_pos; assumption). lra.
Qed.
(** The exact results, from the numbers stored. *)
Definition exact_rot : vec3 := mvec (mval (frot g)) (vval (frot_part alg)).
Definition exact_trans : vec3 := vadd (cross (vval (ftrans g)) exact_rot) (mvec (mval (frot g)) (vval (ftrans_part alg))).
Definition vnearly (e : R) (v : fvec) (q : vec3) : Prop := nearly e (fx v) (vx q) /\ nearly e (fy v) (vy q) /\ nearly e (fz v) (vz q).
Lemma matrix_facts : let m := frot g in
  (finite (f00 m) /\ finite (f01 m) /\ finite (f02 m) /\ finite (f10 m) /\ finite (f11 m) /\ finite (f12 m) /\ finite (f20 m) /\ finite (f21 m) /\ finite (f22 m)) /\
  Rabs (val (f00 m)) <= 101 / 100 /\ Rabs (val (f01 m)) <= 101 / 100 /\ Rabs (val (f02 m)) <= 101 / 100 /\ Rabs (val (f10 m)) <= 101 / 100 /\ Rabs (val (f11 m)) <= 101 / 100 /\ Rabs (val (f12 m)) <= 101 / 100 /\ Rabs (val (f20 m)) <= 101 / 100 /\ Rabs (val (f21 m)) <= 101 / 100 /\ Rabs (val (f22 m)) <= 101 / 100.
Proof. split; [exact Fm|]. unfold entries_near_1, fcoefs in Bm. rewrite !Forall_cons_iff in Bm. tauto. Qed.
Lemma direct_near r : fadjoint_times g alg r -> vnearly (913 / 100 * (u * W) + 4 * h) (frot_part r) exact_rot /\ vnearly (368 / 10 * (u * TW) + 123 / 10 * (u * V) + 12 * (h * T) + 8 * h) (ftrans_part r) exact_trans.
Proof.
  intros (x & z & (X0 & X1 & X2) & (Z0 & Z1 & Z2) & ->). destruct matrix_facts as ((F00 & F01 & F02 & F10 & F11 & F12 & F20 & F21 & F22) & A00 & A01 & A02 & A10 & A11 & A12 & A20 & A21 & A22).
  destruct Fa as ((wx & wy & wz) & (px & py & pz)), Bw as (Wx & Wy & Wz), Bv as (Vx & Vy & Vz), Ft as (tx & ty & tz), Bt as (Tx & Ty & Tz). destruct TW_bounds as (P0 & P1 & P2 & P3 & P4).
  destruct (row_dot _ _ _ _ _ _ W _ F00 F01 F02 wx wy wz A00 A01 A02 Wx Wy Wz P2 X0) as [Nx Bx], (row_dot _ _ _ _ _ _ W _ F10 F11 F12 wx wy wz A10 A11 A12 Wx Wy Wz P2 X1) as [Ny By], (row_dot _ _ _ _ _ _ W _ F20 F21 F22 wx wy wz A20 A21 A22 Wx Wy Wz P2 X2) as [Nz Bz].
  destruct (row_dot _ _ _ _ _ _ V _ F00 F01 F02 px py pz A00 A01 A02 Vx Vy Vz P3 Z0) as [Mx Cx], (row_dot _ _ _ _ _ _ V _ F10 F11 F12 px py pz A10 A11 A12 Vx Vy Vz P3 Z1) as [My Cy], (row_dot _ _ _ _ _ _ V _ F20 F21 F22 px py pz A20 A21 A22 Vx Vy Vz P3 Z2) as [Mz Cz].
  cbn [frot_part ftrans_part]. split; [split; [exact Nx|split; [exact Ny|exact Nz]]|].
  split; [exact (direct_entry _ _ _ _ _ _ _ _ ty Ty Nz Bz tz Tz Ny By Mx Cx)|split; [exact (direct_entry _ _ _ _ _ _ _ _ tz Tz Nx Bx tx Tx Nz Bz My Cy)|exact (direct_entry _ _ _ _ _ _ _ _ tx Tx Ny By ty Ty Nx Bx Mz Cz)]].
Qed.
Lemma matrix_near m r : fse3_adjoint g m -> fmap6_times m alg r -> vnearly (183 / 10 * (u * W) + 4 * h) (frot_part r) exact_rot /\ vnearly (552 / 10 * (u * TW) + 184 / 10 * (u * V) + 16 * (h * W) + 7 * h) (ftrans_part r) exact_trans.
Proof.
  intros (c & (C00 & C01 & C02 & C10 & C11 & C12 & C20 & C21 & C22) & ->) ((R0 & R1 & R2) & (S0 & S1 & S2)). destruct matrix_facts as ((F00 & F01 & F02 & F10 & F11 & F12 & F20 & F21 & F22) & A00 & A01 & A02 & A10 & A11 & A12 & A20 & A21 & A22).
  destruct Fa as ((wx & wy & wz) & (px & py & pz)), Bw as (Wx & Wy & Wz), Bv as (Vx & Vy & Vz), Ft as (tx & ty & tz), Bt as (Tx & Ty & Tz). destruct TW_bounds as (P0 & P1 & P2 & P3 & P4).
  unfold frow6, fmzero in R0, R1, R2, S0, S1, S2. cbn [top_left top_right bottom_left bottom_right f00 f01 f02 f10 f11 f12 f20 f21 f22] in R0, R1, R2, S0, S1, S2.
  unfold fcross_matrix in C00, C01, C02, C10, C11, C12, C20, C21, C22. cbn [f00 f01 f02 f10 f11 f12 f20 f21 f22] in C00, C01, C02, C10, C11, C12, C20, C21, C22.
  split.
  - split; [exact (rot_row _ _ _ _ _ _ _ _ _ W _ F00 F01 F02 wx wy wz px py pz A00 A01 A02 Wx Wy Wz P2 R0)|split; [exact (rot_row _ _ _ _ _ _ _ _ _ W _ F10 F11 F12 wx wy wz px py pz A10 A11 A12 Wx Wy Wz P2 R1)|exact (rot_row _ _ _ _ _ _ _ _ _ W _ F20 F21 F22 wx wy wz px py pz A20 A21 A22 Wx Wy Wz P2 R2)]].
  - assert (O : finite (of_int 0) /\ val (of_int 0) = 0) by apply DriftProofs2.of_int_0. destruct O as [FO VO].
    assert (NF : forall x : f64, finite x -> finite (fneg x)) by (intros x0 ?; unfold finite; rewrite fneg_finite; assumption).
    assert (Z : forall x y p q r : R, Rabs x <= T -> Rabs y <= T -> Rabs p <= 101 / 100 -> Rabs q <= 101 / 100 -> Rabs 0 * Rabs r + Rabs (- x) * Rabs p + Rabs y * Rabs q <= 202 / 100 * T) by (intros x0 y0 p q r0 ? ? ? ?; rewrite Rabs_R0, Rabs_Ropp; pose proof (block_size x0 y0 p q); lra).
    assert (Z' : forall x y p q r : R, Rabs x <= T -> Rabs y <= T -> Rabs p <= 101 / 100 -> Rabs q <= 101 / 100 -> Rabs x * Rabs p + Rabs 0 * Rabs r + Rabs (- y) * Rabs q <= 202 / 100 * T) by (intros x0 y0 p q r0 ? ? ? ?; rewrite Rabs_R0, Rabs_Ropp; pose proof (block_size x0 y0 p q); lra).
    assert (Z'' : forall x y p q r : R, Rabs x <= T -> Rabs y <= T -> Rabs p <= 101 / 100 -> Rabs q <= 101 / 100 -> Rabs (- x) * Rabs p + Rabs y * Rabs q + Rabs 0 * Rabs r <= 202 / 100 * T) by (intros x0 y0 p q r0 ? ? ? ?; rewrite Rabs_R0, Rabs_Ropp; pose proof (block_size x0 y0 p q); lra).
    destruct (block_entry _ _ _ _ _ _ _ FO (NF _ tz) ty F00 F10 F20 ltac:(rewrite VO, fneg_val; apply Z; assumption) C00) as [N00 B00].
    destruct (block_entry _ _ _ _ _ _ _ FO (NF _ tz) ty F01 F11 F21 ltac:(rewrite VO, fneg_val; apply Z; assumption) C01) as [N01 B01].
    destruct (block_entry _ _ _ _ _ _ _ FO (NF _ tz) ty F02 F12 F22 ltac:(rewrite VO, fneg_val; apply Z; assumption) C02) as [N02 B02].
    destruct (block_entry _ _ _ _ _ _ _ tz FO (NF _ tx) F00 F10 F20 ltac:(rewrite VO, fneg_val; apply Z'; assumption) C10) as [N10 B10].
    destruct (block_entry _ _ _ _ _ _ _ tz FO (NF _ tx) F01 F11 F21 ltac:(rewrite VO, fneg_val; apply Z'; assumption) C11) as [N11 B11].
    destruct (block_entry _ _ _ _ _ _ _ tz FO (NF _ tx) F02 F12 F22 ltac:(rewrite VO, fneg_val; apply Z'; assumption) C12) as [N12 B12].
    destruct (block_entry _ _ _ _ _ _ _ (NF _ ty) tx FO F00 F10 F20 ltac:(rewrite VO, fneg_val; apply Z''; assumption) C20) as [N20 B20].
    destruct (block_entry _ _ _ _ _ _ _ (NF _ ty) tx FO F01 F11 F21 ltac:(rewrite VO, fneg_val; apply Z''; assumption) C21) as [N21 B21].
    destruct (block_entry _ _ _ _ _ _ _ (NF _ ty) tx FO F02 F12 F22 ltac:(rewrite VO, fneg_val; apply Z''; assumption) C22) as [N22 B22].
    pose proof (trans_row _ _ _ _ _ _ _ _ _ _ _ _ _ _ _ _ N00 B00 N01 B01 N02 B02 wx Wx wy Wy wz Wz F00 A00 F01 A01 F02 A02 px Vx py Vy pz Vz S0) as G0.
    pose proof (trans_row _ _ _ _ _ _ _ _ _ _ _ _ _ _ _ _ N10 B10 N11 B11 N12 B12 wx Wx wy Wy wz Wz F10 A10 F11 A11 F12 A12 px Vx py Vy pz Vz S1) as G1.
    pose proof (trans_row _ _ _ _ _ _ _ _ _ _ _ _ _ _ _ _ N20 B20 N21 B21 N22 B22 wx Wx wy Wy wz Wz F20 A20 F21 A21 F22 A22 px Vx py Vy pz Vz S2) as G2.
    rewrite VO, !fneg_val in G0, G1, G2. unfold vnearly, exact_trans, exact_rot, vval, mval, mvec, cross, vadd. cbn [vx vy vz m00 m01 m02 m10 m11 m12 m20 m21 m22].
    split; [|split]; [destruct G0 as (G & E)|destruct G1 as (G & E)|destruct G2 as (G & E)]; (split; [exact G|]); (eapply Rle_trans; [right|exact E]); f_equal; ring.
Qed.
End Group.
