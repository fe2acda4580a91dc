(** Making poses in double precision: C67. *)
From Coq Require Import Reals Psatz.
From Flocq Require Import Core BinarySingleNaN.
From Verif Require Import Cpp FloatModel FloatSpec NrmSpec Vec RotSpec ScrewSpec DriftModel DriftSpec DriftProofs DriftProofs2 SpinModel SpinSpec SpinProofs SpinProofs2 SpinProofs3 TwistModel TwistSpec TwistProofs TwistProofs2 TwistProofs3 TwistProofs4.
Local Open Scope R_scope.

(** SE3::exp of any twist of finite numbers within the range is finite.  Its rotation is off
    by 51 units in the last place and four more per radian.  Its translation is off by 76
    units and by a loss that is largest, about 1100 units, at the angle below which the code
    changes to series. *)
Theorem c67_exp : forall w t r, vfinite w -> vfinite t -> norm (vval w) <= 2 ^ 490 -> norm (vval t) <= 2 ^ 500 -> rotation_by (vval w) r ->
  (exists g, fse3_exp w t g) /\
  forall g, fse3_exp w t g -> stands_for ((51 + 4 * norm (vval w)) * u) (frot g, r) /\ vfinite (ftrans g) /\
  norm (vsub (vval (ftrans g)) (screw (vval w) (vval t) 1)) <=
    (76 + 203 / 100 / Rmax (norm (vval w)) (19 / 10000)) * u * norm (vval t) + (11 + 7 * norm (vval w)) * bpow radix2 (-1075).
Proof. exact (fun w t r W T L M R => conj (some_se3_exp w t) (fun g => se3_exp_near w t r g W T L M R)). Qed.
Print Assumptions c67_exp.
(** Three radians about (1, 2, 2) / 3 while moving along (4, -3, 0). *)
Example c67_exp_case : vfinite (ivec 1 2 2) /\ vfinite (ivec 4 (-3) 0) /\ norm (vval (ivec 1 2 2)) = 3 /\ norm (vval (ivec 4 (-3) 0)) = 5 /\
  3 <= 2 ^ 490 /\ 5 <= 2 ^ 500 /\ rotation_by (vval (ivec 1 2 2)) (turning 3 (V3 (1 / 3) (2 / 3) (2 / 3))).
Proof.
  destruct exp_case as (F & N & L & R & _). destruct (ivec_val 4 (-3) 0) as [G W]; try (cbn; lia). split; [exact F|]. split; [exact G|]. split; [exact N|].
  split; [rewrite W; apply norm_is; [lra|unfold dot; cbn [vx vy vz]; lra]|]. rewrite N in L. split; [exact L|]. split; [|exact R].
  apply Rle_trans with (2 ^ 3); [lra|]. apply Rle_pow; [lra|]. apply Nat.leb_le. reflexivity.
Qed.

(** Without a turn SE3::exp is exact: the identity and the vector itself. *)
Theorem c67_no_turn : forall w t g, vfinite w -> vfinite t -> vval w = vzero -> fse3_exp w t g ->
  mfinite (frot g) /\ mval (frot g) = mid /\ vfinite (ftrans g) /\ vval (ftrans g) = vval t.
Proof. exact se3_exp_no_turn. Qed.
Print Assumptions c67_no_turn.
Example c67_no_turn_case : exists w t g, vfinite w /\ vfinite t /\ vval w = vzero /\ fse3_exp w t g /\ norm (vval t) = 5.
Proof.
  destruct c67_exp_case as (_ & T & _ & N & _). destruct (ivec_val 0 0 0) as [G W]; try (cbn; lia). destruct (some_se3_exp (ivec 0 0 0) (ivec 4 (-3) 0)) as [g E].
  exists (ivec 0 0 0), (ivec 4 (-3) 0), g. split; [exact G|]. split; [exact T|]. split; [exact W|]. split; [exact E|exact N].
Qed.

(** SO3::exp_diff, which takes a velocity to where the screw motion leads. *)
Theorem c67_exp_diff : forall w, vfinite w -> norm (vval w) <= 2 ^ 490 ->
  (forall v, mvec (screw_matrix (vval w)) v = screw (vval w) v 1) /\
  (exists m, fso3_exp_diff w m) /\
  forall m, fso3_exp_diff w m -> mfinite m /\
  apart (mval m) (screw_matrix (vval w)) <= (110 + 289 / 100 / Rmax (norm (vval w)) (19 / 10000)) * u + (18 + 12 * norm (vval w)) * bpow radix2 (-1075).
Proof. exact (fun w W L => conj (screw_matrix_acts (vval w)) (conj (some_exp_diff w) (fun m => exp_diff_near w m W L))). Qed.
Print Assumptions c67_exp_diff.
Example c67_exp_diff_case : vfinite (ivec 1 2 2) /\ norm (vval (ivec 1 2 2)) <= 2 ^ 490.
Proof. destruct exp_case as (F & _ & L & _). split; assumption. Qed.

(** Whatever is built by products and inverses from such poses stays as near to the exact
    result as the number of steps says. *)
Theorem c67_composed : forall l x, every (pose_made_by_exp l) x -> l <= 2 ^ 100 -> weight ((1200 + 4 * l) * u) x <= 1 / 10 -> reach x <= 2 ^ 900 ->
  (exists p, pose_of (rmap g_pose x) p) /\
  forall p, pose_of (rmap g_pose x) p ->
  mfinite (frot p) /\ vfinite (ftrans p) /\
  apart (mval (frot p)) (fst (exact_pose (rmap g_exact x))) <= 10 / 9 * bound ((1200 + 4 * l) * u) x /\
  norm (vsub (vval (ftrans p)) (snd (exact_pose (rmap g_exact x)))) <= 2 * weight ((1200 + 4 * l) * u) x * reach x.
Proof. exact composed_poses. Qed.
Print Assumptions c67_composed.
(** The relative pose of two poses. *)
Example c67_composed_case : exists g, pose_made_by_exp 3 g /\ g_length g = 5 /\
  let x := RProduct (RInverse (RGiven g)) (RGiven g) in every (pose_made_by_exp 3) x /\ 3 <= 2 ^ 100 /\ weight ((1200 + 4 * 3) * u) x <= 1 / 10 /\ reach x <= 2 ^ 900.
Proof.
  destruct c67_exp_case as (W & T & NW & NT & _ & L5 & R). destruct (some_se3_exp (ivec 1 2 2) (ivec 4 (-3) 0)) as [p E].
  assert (G : pose_made_by_exp 3 (Given p (turning 3 (V3 (1 / 3) (2 / 3) (2 / 3))) (screw (vval (ivec 1 2 2)) (vval (ivec 4 (-3) 0)) 1) 5)).
  { exists (ivec 1 2 2), (ivec 4 (-3) 0). cbn [g_pose g_rotation g_translation g_length]. split; [exact W|]. split; [exact T|]. split; [rewrite NW; lra|]. split; [rewrite NT; lra|].
    split; [split; [|exact L5]|]; [|split; [exact R|]; split; [reflexivity|exact E]].
    apply Rle_trans with (/ 1); [|lra]. apply Rinv_le_contravar; [lra|]. apply pow_R1_Rle; lra. }
  eexists. split; [exact G|]. split; [reflexivity|]. cbv zeta. split; [split; exact G|].
  assert (P : forall n, (4 <= n)%nat -> 16 <= 2 ^ n) by (intros n H; replace 16 with (2 ^ 4) by lra; apply Rle_pow; [lra|exact H]).
  split; [apply Rle_trans with 16; [lra|]; apply P, Nat.leb_le; reflexivity|]. split.
  - unfold weight. cbn [nesting operations Nat.max Nat.add INR]. rewrite u_num. lra.
  - cbn [reach g_length]. apply Rle_trans with 16; [lra|]. apply P, Nat.leb_le. reflexivity.
Qed.

(** That the translation of SE3::exp is good to a few units in the last place is false: for
    some short turn it is off by 200 of them, whatever the cosine returned within its
    specification. *)
Theorem c67_full_precision_refuted : exists w t, vfinite w /\ vfinite t /\ norm (vval t) = 1 /\ / 1000 <= norm (vval w) <= 1 / 100 /\
  forall g, fse3_exp w t g -> vfinite (ftrans g) /\ 200 * u <= norm (vsub (vval (ftrans g)) (screw (vval w) (vval t) 1)).
Proof. exact precision_lost. Qed.
Print Assumptions c67_full_precision_refuted.
