(** C89: the tests of rotations pass. *)
From Coq Require Import Reals ZArith Lia Lra List Psatz.
From Flocq Require Import Core BinarySingleNaN.
From Verif Require Import Cpp FloatModel FloatSpec FloatProofs NrmSpec Vec RotSpec GeomModel RotProofs CoeffProofs LieProofs FdcProofs3 DriftModel DriftSpec DriftProofs DriftProofs2 SpinModel SpinSpec SpinProofs SpinProofs2 SpinProofs3 TwistModel TwistProofs3 TlogModel TlogProofs TlogProofs5 TlogProofs6 FtsModel FtsProofs FpsModel FstModel FapModel FapSpec FapProofs FapProofs2 FapProofs3 FapProofs4 FapProofs5 AdjModel AdjSpec AdjProofs AdjProofs2 AdjProofs3 TvModel TvSpec TvProofs TvProofs2.
Import ListNotations.
Local Open Scope R_scope.

(** ** Comparing vectors of any length *)
Lemma vec_clear v w c : vfinite v -> vfinite w -> norm (vval v) <= 2 ^ 490 -> norm (vval w) <= 2 ^ 490 -> fvec_is_approx v w c ->
  283 / 100 * norm (vsub (vval v) (vval w)) <= tolerance * Rmin (norm (vval v)) (norm (vval w)) -> c = true.
Proof.
  intros V W BV BW A D. pose proof (coords_comparable v w V W BV BW) as C. pose proof C as (L & N & FA & FB & BA & BB).
  destruct (approx_value _ _ _ A L N FA FB BA BB) as (d & t & _ & ET & R & T & s & S & VS). apply R. fold (off2 (fcoords v) (fcoords w)) in *. fold (least (fcoords v) (fcoords w)) in ET.
  destruct (diffs_near _ _ L FA FB BA BB) as (FD & LD & _ & _ & _ & D2). fold (off2 (fcoords v) (fcoords w)) in D2.
  assert (K8 : 8 * off2 (fcoords v) (fcoords w) <= t2 * least (fcoords v) (fcoords w)).
  { rewrite coords_off, coords_least, <- norm_sqr. pose proof (norm_nonneg (vsub (vval v) (vval w))) as D0. set (x := norm (vsub _ _)) in *. set (m := Rmin _ _) in *. unfold t2. assert (283 / 100 * x * (283 / 100 * x) <= tolerance * m * (tolerance * m)) by (apply Rmult_le_compat; lra). nra. }
  assert (O : 0 <= off2 (fcoords v) (fcoords w)) by apply sq2_pos. pose proof h_pos as H. pose proof h_1 as H1. set (D' := off2 _ _) in *. set (z := t2 * least _ _) in *.
  assert (DB : D' <= 2 ^ 985).
  { unfold D'. rewrite coords_off, <- norm_sqr. assert (X : norm (vsub (vval v) (vval w)) <= 2 * 2 ^ 490).
    { pose proof (sub_le (vval v) (vval w)). lra. }
    pose proof (norm_nonneg (vsub (vval v) (vval w))). replace (2 ^ 985) with (32 * (2 ^ 490 * 2 ^ 490)) by (rewrite <- pow_add; replace 32 with (2 ^ 5) by ring; rewrite <- pow_add; reflexivity). pose proof (pow_lt 2 490 ltac:(lra)) as Q0. generalize dependent (2 ^ 490). intros. nra. }
  destruct (Rle_lt_dec D' (99 / 100 * h)) as [K|K].
  - assert (Z : val s = 0) by (apply (sum_zero _ _ S), tiny_squares; [exact FD|rewrite u_num in D2; lra]). lra.
  - destruct (squares_near _ _ S FD) as [FS ES]; [rewrite LD; cbn; lia| |].
    { replace (2 ^ 990) with (32 * 2 ^ 985) by (replace 32 with (2 ^ 5) by ring; rewrite <- pow_add; reflexivity). assert (1 <= 2 ^ 985) by (apply pow_R1_Rle; lra). generalize dependent (2 ^ 985). intros. rewrite u_num in D2. lra. }
    rewrite LD, VS in ES. replace (INR (length (fcoords v))) with 3 in ES by (cbn; lra). apply Rabs_le_inv in ES, ET. pose proof (sq2_pos (map val (fdiffs (fcoords v) (fcoords w)))) as O2. set (D1 := sq2 (map val (fdiffs _ _))) in *. rewrite u_num in *. lra.
Qed.
Lemma vec_same v w c T E a : vfinite v -> vfinite w -> norm (vval v) <= 2 ^ 490 -> norm (vval w) <= 2 ^ 490 -> 0 <= T -> 0 <= E <= 1 -> 0 < a ->
  norm (vsub (vval v) (vval w)) <= E * T + 900 * h -> a * T <= norm (vval v) + 900 * h -> a * T <= norm (vval w) + 900 * h -> 283 / 100 * (E + / 10 ^ 15) <= tolerance * (a - / 10 ^ 15) ->
  fvec_is_approx v w c -> c = true.
Proof.
  intros V W BV BW T0 E0 A0 D AV AW R C. pose proof h_pos as H0. pose proof h_600 as H6.
  assert (P6 : 0 < / 2 ^ 600) by (apply Rinv_0_lt_compat, pow_lt; lra).
  assert (I6 : / 2 ^ 600 <= / 1024 * / 2 ^ 538).
  { replace 1024 with (2 ^ 10) by lra. rewrite <- Rinv_mult, <- pow_add. apply Rinv_le_contravar; [apply pow_lt; lra|]. apply Rle_pow; [lra|apply Nat.leb_le; reflexivity]. }
  destruct (Rle_lt_dec (/ 2 ^ 600) T) as [K|K].
  - assert (E6 : 900 * h <= / 10 ^ 15 * T) by (apply Rle_trans with (/ 10 ^ 15 * / 2 ^ 600); [lra|apply Rmult_le_compat_l; lra]).
    apply (vec_clear v w c V W BV BW C). apply Rle_trans with (tolerance * ((a - / 10 ^ 15) * T)).
    + apply Rle_trans with (283 / 100 * (E + / 10 ^ 15) * T); [lra|]. rewrite <- Rmult_assoc. apply Rmult_le_compat_r; assumption.
    + apply Rmult_le_compat_l; [apply Rlt_le, tolerance_pos|]. apply Rmin_glb; lra.
  - apply (vec_near _ _ _ V W); [|exact C]. apply Rle_trans with (1 := D). assert (E * T <= T) by nra. assert (P5 : 0 < / 2 ^ 538) by (apply Rinv_0_lt_compat, pow_lt; lra). generalize dependent (/ 2 ^ 538). generalize dependent (/ 2 ^ 600). intros. lra.
Qed.

(** ** Rotations *)
Lemma sound_exp v m : sound3 v -> fso3_exp v m -> exists r, rotation_by (vval v) r /\ stands_for (64 * u) (m, r).
Proof.
  intros (F & _ & N) X. destruct (rotation_by_some (vval v)) as [r R]. exists r. split; [exact R|]. pose proof big_490. apply (stands_weaker ((51 + 4 * norm (vval v)) * u)); [apply exp_near; [exact F|lra|exact R|exact X]|].
  apply Rmult_le_compat_r; [rewrite u_num; lra|lra].
Qed.
Lemma pass check : (exists c : bool, check c) -> (forall c, check c -> c = true) -> passes check.
Proof. split; assumption. Qed.
Lemma fine : 64 * u <= 18 * / 10 ^ 14 /\ 64 * u <= 8 / 10 ^ 14. Proof. rewrite u_num. split; lra. Qed.
Lemma so3_group_passes e a r v : stands_for e (a, r) -> e <= / 10 ^ 10 -> vfinite v -> norm (vval v) <= 4 -> passes (so3_group_agrees a v).
Proof.
  intros A E F N. split; [destruct (some_fmvec a v) as [w W]; destruct (approx_some (fcoords w) (fcoords w)) as [c C]; exists c, w, w; auto|].
  intros c (x & y & X & Y & C). pose proof A as (FA & R & D). cbn [fst snd] in *. pose proof (stands_nonneg _ _ A) as E0.
  assert (B9 : norm (vval v) <= 2 ^ 995) by (apply Rle_trans with (2 ^ 2); [lra|apply Rle_pow; [lra|apply Nat.leb_le; reflexivity]]).
  pose proof (size_apart (mval a) r) as S. rewrite (size_rot r R) in S. pose proof sqrt3_le.
  destruct (fmvec_error a v x FA F ltac:(lra) B9 X) as [FX DX]. destruct (fmvec_error a v y FA F ltac:(lra) B9 Y) as [FY DY].
  destruct (rotated a r e v x FA R D ltac:(lra) F B9 X) as [_ RX]. destruct (rotated a r e v y FA R D ltac:(lra) F B9 Y) as [_ RY].
  pose proof (norm_nonneg (vval v)) as N0. pose proof h_pos as H0. pose proof h_1 as H1. pose proof u_num as U. pose proof big_490.
  pose proof (near_norms _ _ _ RX) as NX. pose proof (near_norms _ _ _ RY) as NY. rewrite rot_norm in NX, NY by exact R. set (T := norm (vval v)) in *.
  assert (SM : size (mval a) * T <= 2 * T) by (apply Rmult_le_compat_r; lra). assert (ET : 0 <= e * T <= / 10 ^ 10 * T) by (split; [apply Rmult_le_pos; assumption|apply Rmult_le_compat_r; assumption]).
  assert (UM : u * (size (mval a) * T) <= u * (2 * T)) by (apply Rmult_le_compat_l; [rewrite U; lra|exact SM]).
  apply (vec_same x y c T (/ 10 ^ 14) (99 / 100) FX FY); try lra; try (rewrite U in *; lra); [|rewrite tolerance_num; lra|exact C].
  pose proof (norm_triangle_sub (vval x) (mvec (mval a) (vval v)) (vval y)) as TR. rewrite (norm_vsub_sym (mvec (mval a) (vval v)) (vval y)) in TR. rewrite U in *. lra.
Qed.
