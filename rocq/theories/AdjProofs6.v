(** The two routes to the adjoint of a pose, compared. *)
From Coq Require Import Reals Lra Lia List.
From Flocq Require Import Core BinarySingleNaN.
From Verif Require Import Cpp FloatModel FloatSpec FloatProofs NrmSpec NrmProofs Vec RotSpec GeomModel RotProofs CoeffProofs LieProofs DriftModel DriftSpec DriftProofs SpinModel SpinSpec SpinProofs SpinProofs3 TwistModel FtsProofs5 FpsModel FmjModel FstModel FstSpec FstProofs FapModel FapSpec FapProofs FapProofs2 FapProofs3 FapProofs4 AdjModel AdjSpec AdjProofs AdjProofs2 AdjProofs4 AdjProofs5.
Import ListNotations.
Local Open Scope R_scope.

Lemma rot_entries m : is_rotation m -> Rabs (m00 m) <= 1 /\ Rabs (m01 m) <= 1 /\ Rabs (m02 m) <= 1 /\ Rabs (m10 m) <= 1 /\ Rabs (m11 m) <= 1 /\ Rabs (m12 m) <= 1 /\ Rabs (m20 m) <= 1 /\ Rabs (m21 m) <= 1 /\ Rabs (m22 m) <= 1.
Proof.
  intro R. destruct (DriftProofs2.rot_rows m R) as (R0 & R1 & R2).
  assert (K : forall x y z, x * x + y * y + z * z = 1 -> Rabs x <= 1 /\ Rabs y <= 1 /\ Rabs z <= 1).
  { assert (L : forall x, x * x <= 1 -> Rabs x <= 1) by (intros x X; apply Rabs_le; split; nra). intros x y z E. pose proof (Rle_0_sqr x). pose proof (Rle_0_sqr y). pose proof (Rle_0_sqr z). unfold Rsqr in *. repeat split; apply L; lra. }
  destruct (K _ _ _ R0) as (? & ? & ?), (K _ _ _ R1) as (? & ? & ?), (K _ _ _ R2) as (? & ? & ?). tauto.
Qed.
Lemma stands_entries e m r : stands_for e (m, r) -> e <= / 1000 -> entries_near_1 m.
Proof.
  intros (F & R & A) E. cbn [fst snd] in *. destruct (entry_size (madd (mval m) (mscale (-1) r))) as (B00 & B01 & B02 & B10 & B11 & B12 & B20 & B21 & B22). fold (apart (mval m) r) in *.
  destruct (rot_entries r R) as (C00 & C01 & C02 & C10 & C11 & C12 & C20 & C21 & C22).
  assert (K : forall x y, Rabs (x + -1 * y) <= apart (mval m) r -> Rabs y <= 1 -> Rabs x <= 101 / 100) by (intros x y H1 H2; apply Rabs_le_inv in H1, H2; apply Rabs_le; lra).
  unfold entries_near_1, fcoefs. apply Forall_cons; [exact (K _ _ B00 C00)|]. apply Forall_cons; [exact (K _ _ B01 C01)|]. apply Forall_cons; [exact (K _ _ B02 C02)|].
  apply Forall_cons; [exact (K _ _ B10 C10)|]. apply Forall_cons; [exact (K _ _ B11 C11)|]. apply Forall_cons; [exact (K _ _ B12 C12)|].
  apply Forall_cons; [exact (K _ _ B20 C20)|]. apply Forall_cons; [exact (K _ _ B21 C21)|]. apply Forall_cons; [exact (K _ _ B22 C22)|]. apply Forall_nil.
Qed.
Lemma stands_moves e m r v : stands_for e (m, r) -> norm (vsub (mvec (mval m) v) (mvec r v)) <= e * norm v.
Proof.
  intros (F & R & A). cbn [fst snd] in *. replace (vsub (mvec (mval m) v) (mvec r v)) with (mvec (madd (mval m) (mscale (-1) r)) v) by (destruct (mval m), r, v; vring).
  eapply Rle_trans; [apply norm_mvec|]. apply Rmult_le_compat_r; [apply norm_nonneg|exact A].
Qed.
Lemma three_squares x y z b : 0 <= b -> Rabs x <= b -> Rabs y <= b -> Rabs z <= b -> x * x + y * y + z * z <= 3 * (b * b).
Proof.
  intros B X Y Z. assert (K : forall t, Rabs t <= b -> t * t <= b * b). { intros t T. rewrite <- (Rabs_right (t * t)) by (pose proof (Rle_0_sqr t) as Q; unfold Rsqr in Q; lra). rewrite Rabs_mult. apply Rmult_le_compat; try apply Rabs_pos; assumption. }
  pose proof (K x X). pose proof (K y Y). pose proof (K z Z). lra.
Qed.
(** A list near the exact one has nearly its size. *)
Lemma square_near x q : q * q <= 101 / 100 * (x * x) + 101 * ((x - q) * (x - q)).
Proof. pose proof (Rle_0_sqr (x - 100 * (q - x))) as P. unfold Rsqr in P. lra. Qed.
Definition v2 (v : vec3) : R := vx v * vx v + vy v * vy v + vz v * vz v.
Lemma v2_norm v : v2 v = norm v * norm v.
Proof. unfold norm. rewrite sqrt_sqrt by apply norm2_nonneg. unfold v2, norm2, dot. ring. Qed.
Lemma vnearly_square e v q : 0 <= e -> vnearly e v q -> v2 q <= 101 / 100 * v2 (vval v) + 303 * (e * e).
Proof.
  intros E ((_ & X) & (_ & Y) & (_ & Z)). unfold v2, vval. cbn [vx vy vz]. pose proof (square_near (val (fx v)) (vx q)). pose proof (square_near (val (fy v)) (vy q)). pose proof (square_near (val (fz v)) (vz q)).
  pose proof (three_squares _ _ _ e E X Y Z). lra.
Qed.
Lemma vnearly_diff e f v w q : 0 <= e -> 0 <= f -> vnearly e v q -> vnearly f w q -> v2 (vsub (vval v) (vval w)) <= 3 * ((e + f) * (e + f)).
Proof.
  intros E F (X & Y & Z) (X' & Y' & Z'). unfold v2, vsub, vval. cbn [vx vy vz]. apply three_squares; [lra|apply (nearly_both _ _ _ _ _ X X')|apply (nearly_both _ _ _ _ _ Y Y')|apply (nearly_both _ _ _ _ _ Z Z')].
Qed.
Lemma group_numbers (X Y W V e f : R) : 0 <= X -> 0 <= Y -> 0 <= e -> 0 <= f -> W <= 1002 / 1000 * X -> V <= 1002 / 1000 * (Y + 25 * X) -> 0 <= W -> 0 <= V ->
  e <= 2311 * (u * W) + 31 * (u * V) -> f <= 28 * (u * W) -> 3 * (e * e) + 3 * (f * f) <= 3 * (u * u) * (9700000 * (X * X + Y * Y)).
Proof.
  intros X0 Y0 E0 F0 HW HV W0 V0 HE HF. pose proof u_pos as U.
  assert (EB : e <= u * (3093 * X + 32 * Y)). { eapply Rle_trans; [exact HE|]. replace (2311 * (u * W) + 31 * (u * V)) with (u * (2311 * W + 31 * V)) by ring. apply Rmult_le_compat_l; lra. }
  assert (FB : f <= u * (29 * X)). { eapply Rle_trans; [exact HF|]. replace (28 * (u * W)) with (u * (28 * W)) by ring. apply Rmult_le_compat_l; lra. }
  assert (EE : e * e <= (u * (3093 * X + 32 * Y)) * (u * (3093 * X + 32 * Y))) by (apply Rmult_le_compat; assumption).
  assert (FF : f * f <= (u * (29 * X)) * (u * (29 * X))) by (apply Rmult_le_compat; assumption).
  assert (S : (3093 * X + 32 * Y) * (3093 * X + 32 * Y) + 29 * X * (29 * X) <= 9700000 * (X * X + Y * Y)).
  { pose proof (Rle_0_sqr (32 * X - 3093 * Y)) as P. unfold Rsqr in P. pose proof (Rle_0_sqr X) as PX. pose proof (Rle_0_sqr Y) as PY. unfold Rsqr in *. lra. }
  assert (UU : 0 <= u * u) by (apply Rmult_le_pos; lra). pose proof (Rmult_le_compat_l _ _ _ UU S). lra.
Qed.
Lemma off2_vectors (a b : ftan) : off2 (ftcoords a) (ftcoords b) = v2 (vsub (vval (frot_part a)) (vval (frot_part b))) + v2 (vsub (vval (ftrans_part a)) (vval (ftrans_part b))).
Proof. destruct a as [[x y z] [p q r]], b as [[x' y' z'] [p' q' r']]. unfold off2, ftcoords, fcoords, diffs, sq2, add_up, v2, vsub, vval. cbn. ring. Qed.
Lemma sq2_vectors (a : ftan) : sq2 (map val (ftcoords a)) = v2 (vval (frot_part a)) + v2 (vval (ftrans_part a)).
Proof. destruct a as [[x y z] [p q r]]. unfold ftcoords, fcoords, sq2, add_up, v2, vval. cbn. ring. Qed.

Lemma group_check g alg r e c : stands_for e (frot g, r) -> e <= / 1000 -> vfinite (ftrans g) -> norm (vval (ftrans g)) <= 25 ->
  tfinite alg -> / 2 ^ 300 <= norm (vval (frot_part alg)) <= 2 ^ 290 -> norm (vval (ftrans_part alg)) <= 2 ^ 290 -> se3_group_agrees g alg c -> c = true.
Proof.
  intros S E Ft Nt Fa Nw Nv (x & m & y & D & A & M & C). set (W := norm (vval (frot_part alg))) in *. set (V := norm (vval (ftrans_part alg))) in *.
  assert (PW : 0 <= W) by apply norm_nonneg. assert (PV : 0 <= V) by apply norm_nonneg. pose proof (stands_nonneg _ _ S) as E0.
  assert (P3 : 2 ^ 290 <= 2 ^ 300) by (apply Rle_pow; [lra|lia]). assert (P25 : 25 <= 2 ^ 300) by (apply Rle_trans with (2 ^ 10); [lra|apply Rle_pow; [lra|lia]]).
  assert (Bt : vwithin 25 (ftrans g)) by (destruct (entry_norm (vval (ftrans g))) as (? & ? & ?); cbn [vval vx vy vz] in *; unfold vwithin; lra).
  assert (Bw : vwithin W (frot_part alg)) by (destruct (entry_norm (vval (frot_part alg))) as (? & ? & ?); cbn [vval vx vy vz] in *; unfold vwithin; auto).
  assert (Bv : vwithin V (ftrans_part alg)) by (destruct (entry_norm (vval (ftrans_part alg))) as (? & ? & ?); cbn [vval vx vy vz] in *; unfold vwithin; auto).
  pose proof (stands_entries e (frot g) r S E) as Bm. pose proof S as (Fm & R & _). cbn [fst snd] in Fm, R.
  destruct (direct_near g alg 25 W V Fm Ft Fa Bt Bw Bv ltac:(lra) ltac:(lra) ltac:(lra) Bm x D) as [XR XT].
  destruct (matrix_near g alg 25 W V Fm Ft Fa Bt Bw Bv ltac:(lra) ltac:(lra) ltac:(lra) Bm m y A M) as [YR YT]. unfold TW in *.
  set (q := exact_rot g alg) in *. set (p := exact_trans g alg) in *. pose proof h_pos as H0. pose proof u_pos as U0.
  assert (HW : h <= / 100000000 * (u * W)).
  { eapply Rle_trans; [apply FpsProofs.h_tiny|]. assert (/ 2 ^ 400 <= W) by (apply Rle_trans with (/ 2 ^ 300); [apply Rinv_le_contravar; [apply pow_lt; lra|apply (Rle_pow 2 300 400); [lra|lia]]|lra]).
    replace (/ 100000000 * (u * W)) with (W * (u / 10 ^ 8)) by field. apply Rmult_le_compat_r; [|assumption]. unfold Rdiv. apply Rmult_le_pos; lra. }
  assert (HW2 : h * W <= / 1000 * (u * W)) by (rewrite <- Rmult_assoc; apply Rmult_le_compat_r; [exact PW|pose proof SpinProofs.h_tiny; lra]).
  assert (HWP : 0 <= h * W) by (apply Rmult_le_pos; lra). assert (UWP : 0 <= u * W) by (apply Rmult_le_pos; lra). assert (UVP : 0 <= u * V) by (apply Rmult_le_pos; lra).
  replace (u * (25 * W)) with (25 * (u * W)) in XT, YT by ring.
  set (e1 := 913 / 100 * (u * W) + 4 * h) in *. set (e2 := 368 / 10 * (25 * (u * W)) + 123 / 10 * (u * V) + 12 * (h * 25) + 8 * h) in *. set (e3 := 183 / 10 * (u * W) + 4 * h) in *. set (e4 := 552 / 10 * (25 * (u * W)) + 184 / 10 * (u * V) + 16 * (h * W) + 7 * h) in *.
  assert (Q1 : 0 <= e1) by (unfold e1; lra). assert (Q2 : 0 <= e2) by (unfold e2; lra). assert (Q3 : 0 <= e3) by (unfold e3; lra). assert (Q4 : 0 <= e4) by (unfold e4; lra).
  (* the exact sizes *)
  assert (QW : Rabs (norm q - W) <= / 1000 * W). { pose proof (stands_moves e (frot g) r (vval (frot_part alg)) S) as N. fold q in N. change (mvec (mval (frot g)) (vval (frot_part alg))) with q in N. pose proof (near_norms _ _ _ N) as L. rewrite rot_norm in L by exact R. fold W in L. assert (e * W <= / 1000 * W) by (apply Rmult_le_compat_r; lra). apply Rabs_le. lra. }
  set (z := mvec (mval (frot g)) (vval (ftrans_part alg))). assert (ZV : Rabs (norm z - V) <= / 1000 * V). { pose proof (stands_moves e (frot g) r (vval (ftrans_part alg)) S) as N. fold z in N. pose proof (near_norms _ _ _ N) as L. rewrite rot_norm in L by exact R. fold V in L. assert (e * V <= / 1000 * V) by (apply Rmult_le_compat_r; lra). apply Rabs_le. lra. }
  apply Rabs_le_inv in QW, ZV. pose proof (norm_nonneg q) as PQ. pose proof (norm_nonneg p) as PP.
  assert (CQ : norm (cross (vval (ftrans g)) q) <= 25 * norm q) by (eapply Rle_trans; [apply norm_cross_le|]; apply Rmult_le_compat_r; assumption).
  assert (PZ : norm p <= 25 * norm q + norm z) by (unfold p, exact_trans; eapply Rle_trans; [apply norm_triangle|]; fold q; fold z; lra).
  assert (ZP : norm z <= norm p + 25 * norm q). { pose proof (norm_near z p) as N. assert (EV : vsub z p = vscale (-1) (cross (vval (ftrans g)) q)) by (unfold p, exact_trans; fold q; fold z; destruct (cross (vval (ftrans g)) q), z; vring). rewrite EV, norm_scale in N. rewrite (Rabs_left (-1)) in N by lra. lra. }
  assert (GN : 3 * ((e2 + e4) * (e2 + e4)) + 3 * ((e1 + e3) * (e1 + e3)) <= 3 * (u * u) * (9700000 * (norm q * norm q + norm p * norm p))).
  { apply (group_numbers (norm q) (norm p) W V); try lra; [unfold e2, e4|unfold e1, e3]; lra. }
  set (S2 := norm q * norm q + norm p * norm p) in *.
  assert (O : off2 (ftcoords x) (ftcoords y) <= 3 * (u * u) * (9700000 * S2)).
  { rewrite off2_vectors. pose proof (vnearly_diff _ _ _ _ _ Q1 Q3 XR YR). pose proof (vnearly_diff _ _ _ _ _ Q2 Q4 XT YT). lra. }
  assert (K : forall a b k, 0 <= a -> 0 <= b -> k = a + b -> a * a <= k * k) by (intros a b k Ha Hb ->; apply Rmult_le_compat; lra).
  pose proof (K e1 e3 _ Q1 Q3 eq_refl) as K1. pose proof (K e2 e4 _ Q2 Q4 eq_refl) as K2. pose proof (K e3 e1 (e1 + e3) Q3 Q1 ltac:(ring)) as K3. pose proof (K e4 e2 (e2 + e4) Q4 Q2 ltac:(ring)) as K4.
  assert (UU : u * u = / 81129638414606681695789005144064) by (rewrite u_num; lra).
  assert (S0 : 0 <= S2) by (unfold S2; pose proof (Rle_0_sqr (norm q)); pose proof (Rle_0_sqr (norm p)); unfold Rsqr in *; lra).
  assert (LX : 98 / 100 * S2 <= sq2 (map val (ftcoords x))).
  { rewrite sq2_vectors. pose proof (vnearly_square _ _ _ Q1 XR) as L1. pose proof (vnearly_square _ _ _ Q2 XT) as L2. rewrite (v2_norm q) in L1. rewrite (v2_norm p) in L2. set (s1 := v2 (vval (frot_part x))) in *. set (s2 := v2 (vval (ftrans_part x))) in *. unfold S2 in *. rewrite UU in GN. lra. }
  assert (LY : 98 / 100 * S2 <= sq2 (map val (ftcoords y))).
  { rewrite sq2_vectors. pose proof (vnearly_square _ _ _ Q3 YR) as L1. pose proof (vnearly_square _ _ _ Q4 YT) as L2. rewrite (v2_norm q) in L1. rewrite (v2_norm p) in L2. set (s1 := v2 (vval (frot_part y))) in *. set (s2 := v2 (vval (ftrans_part y))) in *. unfold S2 in *. rewrite UU in GN. lra. }
  assert (LL : 98 / 100 * S2 <= least (ftcoords x) (ftcoords y)) by (apply Rmin_glb; assumption).
  assert (big : 1000 * 2 ^ 290 <= 2 ^ 490 /\ 0 < 2 ^ 290). { split; [|apply pow_lt; lra]. replace (2 ^ 490) with (2 ^ 200 * 2 ^ 290) by (rewrite <- pow_add; reflexivity). apply Rmult_le_compat_r; [apply pow_le; lra|]. apply Rle_trans with (2 ^ 10); [lra|apply Rle_pow; [lra|lia]]. }
  assert (UW : u * W <= / 1000000 * 2 ^ 290 /\ u * V <= / 1000000 * 2 ^ 290) by (split; apply Rmult_le_compat; try lra; rewrite u_num; lra).
  assert (VB : forall k v w, vnearly k v w -> norm w <= 100 * 2 ^ 290 -> k <= 100 * 2 ^ 290 -> Forall finite (fcoords v) /\ Forall (fun x => Rabs (val x) <= 2 ^ 490) (fcoords v)).
  { intros k v w ((F1 & D1) & (F2 & D2) & (F3 & D3)) NW NK. destruct (entry_norm w) as (N1 & N2 & N3). unfold fcoords. split; [repeat (apply Forall_cons; [assumption|]); apply Forall_nil|].
    apply Forall_cons; [pose proof (abs_near _ _ _ _ D1 N1); lra|]. apply Forall_cons; [pose proof (abs_near _ _ _ _ D2 N2); lra|]. apply Forall_cons; [pose proof (abs_near _ _ _ _ D3 N3); lra|]. apply Forall_nil. }
  apply (approx_yes (ftcoords x) (ftcoords y) c C).
  - destruct (VB _ _ _ XR) as [F1 B1]; [lra|unfold e1; lra|]. destruct (VB _ _ _ XT) as [F2 B2]; [lra|unfold e2; lra|]. destruct (VB _ _ _ YR) as [F3 B3]; [lra|unfold e3; lra|]. destruct (VB _ _ _ YT) as [F4 B4]; [lra|unfold e4; lra|].
    unfold comparable, ftcoords. split; [reflexivity|]. split; [cbn; lia|]. rewrite !Forall_app. tauto.
  - eapply Rle_trans; [|exact LL]. assert (99 / 100 * (W * W) <= S2). { assert ((999 / 1000 * W) * (999 / 1000 * W) <= norm q * norm q) by (apply Rmult_le_compat; lra). pose proof (Rle_0_sqr (norm p)) as PP2. unfold Rsqr in PP2. unfold S2. pose proof (Rle_0_sqr W) as WW. unfold Rsqr in WW. lra. }
    assert (/ 2 ^ 300 * / 2 ^ 300 <= W * W) by (apply Rmult_le_compat; try lra; left; apply Rinv_0_lt_compat, pow_lt; lra).
    assert (/ 2 ^ 800 <= / 2 ^ 10 * (/ 2 ^ 300 * / 2 ^ 300)). { rewrite <- !Rinv_mult, <- !pow_add. apply Rinv_le_contravar; [apply pow_lt; lra|apply Rle_pow; [lra|lia]]. }
    assert (0 <= / 2 ^ 300 * / 2 ^ 300) by (apply Rmult_le_pos; left; apply Rinv_0_lt_compat, pow_lt; lra). assert (/ 2 ^ 10 <= / 1000) by lra.
    assert (/ 2 ^ 10 * (/ 2 ^ 300 * / 2 ^ 300) <= / 1000 * (/ 2 ^ 300 * / 2 ^ 300)) by (apply Rmult_le_compat_r; lra). lra.
  - eapply Rle_trans; [exact O|]. assert (TT : t2 = / 1000000000000000000000000) by (unfold t2; rewrite tolerance_num; lra). rewrite TT, UU, u_num. lra.
Qed.
Lemma some_group_agrees g alg : exists c, se3_group_agrees g alg c.
Proof.
  destruct (some_mmul (fcross_matrix (ftrans g)) (frot g)) as [b B]. assert (X : exists m, fse3_adjoint g m) by (eexists; exists b; split; [exact B|reflexivity]). destruct X as [m X]. destruct (some_map6 m alg) as [y Y].
  destruct (some_fmvec (frot g) (frot_part alg)) as [v1 V1], (some_fmvec (frot g) (ftrans_part alg)) as [v3 V3].
  assert (Z : exists x, fadjoint_times g alg x) by (eexists; exists v1, v3; split; [exact V1|]; split; [exact V3|reflexivity]). destruct Z as [x Z].
  destruct (approx_some (ftcoords x) (ftcoords y)) as [c C]. exists c, x, m, y. auto.
Qed.
