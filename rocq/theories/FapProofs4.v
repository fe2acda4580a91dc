(** Comparisons of computed rotations and poses. *)
From Coq Require Import Reals Lra Lia List Psatz.
From Flocq Require Import Core BinarySingleNaN.
From Verif Require Import Cpp FloatModel FloatSpec FloatProofs NrmSpec NrmProofs LenModel LenSpec LenProofs Vec RotSpec RotProofs CoeffProofs DriftModel DriftSpec DriftProofs DriftProofs2 SpinModel SpinSpec SpinProofs SpinProofs2 SpinProofs3 TwistModel TlogModel TlogSpec TlogProofs5 TlogProofs6 SlogModel SlogProofs6 SlogProofs7 FstModel FstSpec FstProofs FapModel FapSpec FapProofs FapProofs2 FapProofs3.
Import ListNotations.
Local Open Scope R_scope.

Lemma apart_sym a b : apart a b = apart b a.
Proof. unfold apart. replace (madd a (mscale (-1) b)) with (mscale (-1) (madd b (mscale (-1) a))); [rewrite size_scale, Rabs_left by lra; ring|]. destruct a, b. vsimpl. f_equal; ring. Qed.
Lemma stands_weaker e f p : stands_for e p -> e <= f -> stands_for f p.
Proof. intros (A & B & C) H. split; [exact A|]. split; [exact B|lra]. Qed.
Lemma stands_nonneg e p : stands_for e p -> 0 <= e.
Proof. intros (_ & _ & C). pose proof (apart_pos (mval (fst p)) (snd p)). lra. Qed.
(** Stored rotations compare as the rotations they stand for, except near the limit. *)
Lemma rot_compare e f a b r s c : stands_for e (a, r) -> stands_for f (b, s) -> e + f <= / 10 ^ 6 -> fso3_is_approx a b c ->
  (apart r s + (e + f) <= 1732 / 1000 * tolerance -> c = true) /\ (1733 / 1000 * tolerance + (e + f) <= apart r s -> c = false).
Proof.
  intros A B H C. pose proof (stands_nonneg _ _ A). pose proof (stands_nonneg _ _ B).
  destruct (rot_decides (e + f) a b r s c (stands_weaker e (e + f) _ A ltac:(lra)) (stands_weaker f (e + f) _ B ltac:(lra)) H C) as [Y N].
  destruct A as (_ & _ & A), B as (_ & _ & B). cbn [fst snd] in A, B.
  pose proof (apart_triangle (mval a) r (mval b)) as T1. pose proof (apart_triangle r s (mval b)) as T2. pose proof (apart_triangle r (mval a) s) as T3. pose proof (apart_triangle (mval a) (mval b) s) as T4.
  rewrite (apart_sym s (mval b)) in T2. rewrite (apart_sym r (mval a)) in T3. split; intro D; [apply Y|apply N]; lra.
Qed.
Lemma compositions e x y p q c : every (stands_for e) x -> every (stands_for e) y -> 10 / 9 * (bound e x + bound e y) <= / 10 ^ 6 ->
  rotation_of (rmap fst x) p -> rotation_of (rmap fst y) q -> fso3_is_approx p q c ->
  let D := apart (exact_rotation (rmap snd x)) (exact_rotation (rmap snd y)) in let E := 10 / 9 * (bound e x + bound e y) in
  (D + E <= 1732 / 1000 * tolerance -> c = true) /\ (1733 / 1000 * tolerance + E <= D -> c = false).
Proof.
  intros X Y B P Q C D E. pose proof (bound_pos e x (stands_pos _ _ X)) as BX. pose proof (bound_pos e y (stands_pos _ _ Y)) as BY.
  destruct (composed_close e x p X ltac:(lra) P) as (FP & RP & AP). destruct (composed_close e y q Y ltac:(lra) Q) as (FQ & RQ & AQ).
  destruct (rot_compare (10 / 9 * bound e x) (10 / 9 * bound e y) p q _ _ c (conj FP (conj RP AP)) (conj FQ (conj RQ AQ)) ltac:(lra) C) as [T N].
  fold D in T, N. split; intro H; [apply T|apply N]; unfold E in H; lra.
Qed.
Lemma apart_self a : apart a a = 0.
Proof. unfold apart, size, madd, mscale. cbn [m00 m01 m02 m10 m11 m12 m20 m21 m22]. replace (_ + _) with 0 by ring. apply sqrt_0. Qed.
(** The checks of liegroup_test.cc. *)
Lemma exp_log_same m r e v p c : stands_for e (m, r) -> e <= 18 * / 10 ^ 14 -> fso3_log m v -> fso3_exp v p -> fso3_is_approx p m c -> c = true.
Proof.
  intros S H L X C. pose proof (exp_log m r e v p S ltac:(lra) L X) as S'. apply (rot_compare _ _ p m r r c S' S); [rewrite u_num; lra|exact C|].
  rewrite apart_self, u_num, tolerance_num. lra.
Qed.
Lemma opposite_same v m p c : vfinite v -> norm (vval v) <= 1900 -> fso3_exp v m -> fso3_exp (fvneg v) p -> fso3_is_approx (fmtrans m) p c -> c = true.
Proof.
  intros F N M P C. destruct (rotation_by_some (vval v)) as [r R]. assert (B : norm (vval v) <= 2 ^ 490) by (apply Rle_trans with (2 ^ 11); [lra|apply Rle_pow; [lra|apply Nat.leb_le; reflexivity]]).
  assert (P' : fso3_exp v (fmtrans p)) by (apply exp_opposite_iff; rewrite fmtrans_fmtrans; exact P).
  pose proof (exp_near v r m F B R M) as SM. pose proof (exp_near v r _ F B R P') as SP.
  assert (T : forall a f, stands_for f (a, r) -> stands_for f (fmtrans a, mtrans r)).
  { intros a f (A1 & A2 & A3). cbn [fst snd] in *. split; [destruct A1 as (?&?&?&?&?&?&?&?&?); repeat split; assumption|]. split; [apply rot_mtrans, A2|]. cbn [fst snd]. change (mval (fmtrans a)) with (mtrans (mval a)). rewrite apart_mtrans. exact A3. }
  apply T in SM. apply T in SP. rewrite fmtrans_fmtrans in SP.
  apply (rot_compare _ _ _ _ _ _ c SM SP); [rewrite u_num; lra|exact C|]. rewrite apart_self, u_num, tolerance_num. lra.
Qed.
Lemma near_norms a b e : norm (vsub a b) <= e -> norm b - e <= norm a <= norm b + e.
Proof.
  intro H. pose proof (norm_triangle b (vsub a b)) as T. replace (vadd b (vsub a b)) with a in T by (destruct a, b; vsimpl; f_equal; ring).
  pose proof (norm_triangle a (vsub b a)) as T'. replace (vadd a (vsub b a)) with b in T' by (destruct a, b; vsimpl; f_equal; ring).
  assert (N : norm (vsub b a) = norm (vsub a b)) by (unfold norm, norm2, dot, vsub; cbn [vx vy vz]; f_equal; ring). lra.
Qed.
Lemma log_exp_same v m w c : vfinite v -> 15 / 100 <= norm (vval v) <= 3 -> fso3_exp v m -> fso3_log m w -> fvec_is_approx w v c -> c = true.
Proof.
  intros F N M L C. destruct (log_exp v m w F (proj2 N) M L) as [FW E]. pose proof (near_norms _ _ _ E) as B. pose proof big_490.
  destruct (vec_decides w v c FW F) as [Y _]; [rewrite u_num in B; lra|lra|exact C|]. 
  assert (K : 149 / 1000 <= Rmin (norm (vval w)) (norm (vval v))) by (apply Rmin_glb; rewrite u_num in B; lra). set (k := Rmin _ _) in *.
  apply Y; [|rewrite u_num, tolerance_num in *; lra]. apply Rle_trans with (149 / 1000); [|exact K]. apply Rle_trans with (/ 2 ^ 10); [|lra]. apply Rinv_le_contravar; [apply pow_lt; lra|apply Rle_pow; [lra|apply Nat.leb_le; reflexivity]].
Qed.

(** ** Poses *)
Lemma h_600 : 1000 * h <= / 10 ^ 15 * / 2 ^ 600.
Proof.
  rewrite <- (bpow_pow 600), <- bpow_opp. unfold h. change (Z.of_nat 600) with 600%Z. replace (-1075)%Z with (-475 + - (600))%Z by ring. rewrite bpow_plus. pose proof (bpow_gt_0 radix2 (- (600))) as P. set (w := bpow radix2 (- (600))) in *.
  assert (K : bpow radix2 (-475) <= / 10 ^ 20).
  { apply Rle_trans with (bpow radix2 (-100)); [apply bpow_le; lia|]. change (bpow radix2 (-100)) with (/ IZR (2 ^ 100)). apply Rinv_le_contravar; [apply pow_lt; lra|]. rewrite pow_IZR. apply IZR_le. apply Z.leb_le. reflexivity. }
  set (k := bpow radix2 (-475)) in *. assert (k * w <= / 10 ^ 20 * w) by (apply Rmult_le_compat_r; lra). lra.
Qed.
Lemma coords_near v w : norm (vsub (vval v) (vval w)) <= / 2 ^ 538 -> Forall (fun x => Rabs x <= / 2 ^ 538) (diffs (map val (fcoords v)) (map val (fcoords w))).
Proof. intro H. pose proof (entry_norm (vsub (vval v) (vval w))) as (A & B & C). unfold vsub, vval in A, B, C, H. cbn [vx vy vz] in A, B, C, H. unfold diffs, fcoords. cbn [map combine fst snd]. repeat (apply Forall_cons; [lra|]). apply Forall_nil. Qed.
Lemma vec_near v w c : vfinite v -> vfinite w -> norm (vsub (vval v) (vval w)) <= / 2 ^ 538 -> fvec_is_approx v w c -> c = true.
Proof. intros V W H C. apply (approx_near _ _ _ C); [apply coords_finite, V|apply coords_finite, W|apply coords_near, H]. Qed.
Lemma pose_exp_log_same g r e w v g' c : stands_for e (frot g, r) -> e <= 18 * / 10 ^ 14 -> vfinite (ftrans g) -> norm (vval (ftrans g)) <= 2 ^ 489 ->
  fse3_log g w v -> fse3_exp w v g' -> fse3_is_approx g' g c -> c = true.
Proof.
  intros S H F B L X (p & q & P & Q & ->).
  destruct (se3_exp_log g r e w v g' S ltac:(lra) F) as (S' & F' & E); [apply Rle_trans with (1 := B); apply Rle_pow; [lra|apply Nat.leb_le; reflexivity]|exact L|exact X|].
  assert (p = true) as ->.
  { apply (rot_compare _ _ (frot g') (frot g) r r p S' S); [rewrite u_num; lra|exact P|]. rewrite apart_self, u_num, tolerance_num. lra. }
  cbn [andb]. change (bpow radix2 (-1075)) with h in E. pose proof (near_norms _ _ _ E) as N. set (T := norm (vval (ftrans g))) in *. pose proof h_pos as H0. pose proof h_600 as H6. pose proof (norm_nonneg (vval (ftrans g))) as T0. fold T in T0.
  assert (P6 : 0 < / 2 ^ 600) by (apply Rinv_0_lt_compat, pow_lt; lra).
  assert (I6 : / 2 ^ 600 <= / 1024 * / 2 ^ 538).
  { replace 1024 with (2 ^ 10) by lra. rewrite <- Rinv_mult, <- pow_add. apply Rinv_le_contravar; [apply pow_lt; lra|]. apply Rle_pow; [lra|apply Nat.leb_le; reflexivity]. }
  assert (P5 : 0 < / 2 ^ 538) by (apply Rinv_0_lt_compat, pow_lt; lra).
  destruct (Rle_lt_dec (/ 2 ^ 600) T) as [K|K].
  - assert (BB : 2 ^ 490 = 2 * 2 ^ 489) by reflexivity. pose proof (pow_lt 2 489 ltac:(lra)) as B0.
    assert (E6 : 60 * h <= / 10 ^ 15 * T) by (apply Rle_trans with (/ 10 ^ 15 * / 2 ^ 600); [lra|apply Rmult_le_compat_l; lra]).
    destruct (vec_decides (ftrans g') (ftrans g) q F' F) as (_ & _ & Y); [fold T; rewrite BB, u_num in *; lra|fold T; lra|exact Q|]. apply Y.
    assert (M : 99 / 100 * T <= Rmin (norm (vval (ftrans g'))) T) by (apply Rmin_glb; rewrite u_num in *; lra). fold T. set (m := Rmin _ _) in *. rewrite u_num, tolerance_num in *. lra.
  - apply (vec_near _ _ _ F' F); [|exact Q]. rewrite u_num in E. lra.
Qed.
Lemma pose_compositions e x y p q c : every (pose_stands_for e) x -> every (pose_stands_for e) y -> weight e x <= 1 / 10 -> weight e y <= 1 / 10 -> reach x <= 2 ^ 900 -> reach y <= 2 ^ 900 ->
  pose_of (rmap g_pose x) p -> pose_of (rmap g_pose y) q -> exact_pose (rmap g_exact x) = exact_pose (rmap g_exact y) ->
  10 / 9 * (bound e x + bound e y) <= 1732 / 1000 * tolerance ->
  let t := norm (snd (exact_pose (rmap g_exact x))) in t <= 2 ^ 489 -> 10 * (weight e x * reach x + weight e y * reach y) <= tolerance * t ->
  fse3_is_approx p q c -> c = true.
Proof.
  intros X Y WX WY RX RY P Q EQ B t T W (a & b & A & C & ->).
  destruct (pose_error e x X WX RX) as [_ EX]. destruct (EX p P) as (FP & VP & AP & TP). destruct (pose_error e y Y WY RY) as [_ EY]. destruct (EY q Q) as (FQ & VQ & AQ & TQ). rewrite <- EQ in AQ, TQ.
  assert (E0 : 0 <= e).
  { clear - X. induction x as [g|x IH y IH'|x IH]; cbn [every] in X; [destruct X as (S & _); exact (stands_nonneg _ _ S)|tauto|auto]. }
  pose proof (bound_pos e x E0) as BX. pose proof (bound_pos e y E0) as BY. rewrite tolerance_num in B.
  destruct (pose_rotation_close e x p X ltac:(lra) P) as (_ & R & _).
  assert (a = true) as ->.
  { apply (rot_compare (10 / 9 * bound e x) (10 / 9 * bound e y) _ _ _ _ a (conj FP (conj R AP)) (conj FQ (conj R AQ))); [lra|exact A|]. rewrite apart_self, tolerance_num. lra. }
  cbn [andb]. set (s := snd (exact_pose (rmap g_exact x))) in *. pose proof (near_norms _ _ _ TP) as NP. pose proof (near_norms _ _ _ TQ) as NQ. fold t in NP, NQ.
  assert (W1 : 0 <= 2 * weight e x * reach x) by (eapply Rle_trans; [apply norm_nonneg|exact TP]). assert (W2 : 0 <= 2 * weight e y * reach y) by (eapply Rle_trans; [apply norm_nonneg|exact TQ]).
  assert (O : norm (vsub (vval (ftrans p)) (vval (ftrans q))) <= 2 * weight e x * reach x + 2 * weight e y * reach y).
  { replace (vsub (vval (ftrans p)) (vval (ftrans q))) with (vadd (vsub (vval (ftrans p)) s) (vsub s (vval (ftrans q)))) by (destruct (vval (ftrans p)), (vval (ftrans q)), s; vsimpl; f_equal; ring).
    eapply Rle_trans; [apply norm_triangle|]. assert (N : norm (vsub s (vval (ftrans q))) = norm (vsub (vval (ftrans q)) s)) by (unfold norm, norm2, dot, vsub; cbn [vx vy vz]; f_equal; ring). lra. }
  assert (T0 : 0 <= t) by apply norm_nonneg. assert (BB : 2 ^ 490 = 2 * 2 ^ 489) by reflexivity. rewrite tolerance_num in W.
  destruct (vec_decides (ftrans p) (ftrans q) b VP VQ) as (_ & _ & K); [rewrite BB; lra|rewrite BB; lra|exact C|]. apply K.
  assert (M : 99 / 100 * t <= Rmin (norm (vval (ftrans p))) (norm (vval (ftrans q)))) by (apply Rmin_glb; lra). set (m := Rmin _ _) in *. rewrite tolerance_num. lra.
Qed.
