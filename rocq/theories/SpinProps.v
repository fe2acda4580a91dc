(** Making rotations in double precision: C66. *)
From Coq Require Import Reals Psatz.
From Flocq Require Import Core BinarySingleNaN.
From Verif Require Import Cpp FloatModel FloatSpec NrmSpec Vec RotSpec DriftModel DriftSpec DriftProofs DriftProofs2 SpinModel SpinSpec SpinProofs SpinProofs2 SpinProofs3.
Local Open Scope R_scope.

(** The rotation made from a finite angle and an axis within [e] of the unit vector [n] has
    finite entries and lies within 31 units in the last place and 5.5 [e] of the exact turn. *)
Theorem c66_angle_axis : forall angle axis n e, finite angle -> vfinite axis -> norm n = 1 -> norm (vsub (vval axis) n) <= e -> e <= / 100 ->
  (exists m, fangle_axis angle axis m) /\
  forall m, fangle_axis angle axis m -> stands_for (31 * u + 55 / 10 * e) (m, turning (val angle) n).
Proof. exact (fun t a n e T A N D E => conj (some_angle_axis t a) (fun m => angle_axis_near t a n e m T A N D E)). Qed.
Print Assumptions c66_angle_axis.
(** A thousand radians about the third axis. *)
Example c66_angle_axis_case : finite (of_int 1000) /\ val (of_int 1000) = 1000 /\ vfinite (ivec 0 0 1) /\ norm (V3 0 0 1) = 1 /\ norm (vsub (vval (ivec 0 0 1)) (V3 0 0 1)) <= 0 /\ 31 * u + 55 / 10 * 0 <= / 10 ^ 14.
Proof.
  destruct (FloatProofs.of_small 1000) as [F V]; [cbn; lia|]. destruct (ivec_val 0 0 1) as [G W]; try (cbn; lia). split; [exact F|]. split; [exact V|]. split; [exact G|].
  split; [apply norm_is; [lra|unfold dot; cbn [vx vy vz]; lra]|]. rewrite W. split; [|rewrite u_num; lra].
  right. apply norm_is; [lra|]. unfold dot, vsub. cbn [vx vy vz]. lra.
Qed.

(** SO3::exp of any finite vector no longer than 2^490 has finite entries and is off by 51
    units in the last place and four more per radian. *)
Theorem c66_exp : forall v r, vfinite v -> norm (vval v) <= 2 ^ 490 -> rotation_by (vval v) r ->
  (exists m, fso3_exp v m) /\
  forall m, fso3_exp v m -> stands_for ((51 + 4 * norm (vval v)) * u) (m, r).
Proof. exact (fun v r F N R => conj (some_exp v) (fun m => exp_near v r m F N R)). Qed.
Print Assumptions c66_exp.
(** Every vector has one rotation; three radians about (1, 2, 2) / 3. *)
Example c66_exp_case : (forall v, exists r, rotation_by v r) /\
  vfinite (ivec 1 2 2) /\ norm (vval (ivec 1 2 2)) = 3 /\ norm (vval (ivec 1 2 2)) <= 2 ^ 490 /\
  rotation_by (vval (ivec 1 2 2)) (turning 3 (V3 (1 / 3) (2 / 3) (2 / 3))) /\ apart (turning 3 (V3 (1 / 3) (2 / 3) (2 / 3))) mid >= 1 /\ (51 + 4 * 3) * u <= / 10 ^ 14.
Proof. exact (conj rotation_by_some exp_case). Qed.

(** The matrices named in the specification are rotations, and take every vector to itself
    turned about the axis. *)
Theorem c66_turning : forall t n, norm n = 1 -> is_rotation (turning t n) /\ (forall v, mvec (turning t n) v = turned t n v).
Proof. exact (fun t n N => conj (turning_rotation t n N) (turning_turns t n)). Qed.
Print Assumptions c66_turning.
Example c66_turning_case : norm (V3 (1 / 3) (2 / 3) (2 / 3)) = 1.
Proof. apply norm_is; [lra|unfold dot; cbn [vx vy vz]; lra]. Qed.

(** SO3::exp of the zero vector is exactly the identity. *)
Theorem c66_exp_zero : forall v m, vfinite v -> vval v = vzero -> fso3_exp v m -> mfinite m /\ mval m = mid.
Proof. exact exp_zero. Qed.
Print Assumptions c66_exp_zero.
Example c66_exp_zero_case : vfinite (FV (of_int 0) (fneg (of_int 0)) (of_int 0)) /\ vval (FV (of_int 0) (fneg (of_int 0)) (of_int 0)) = vzero.
Proof. split; [repeat split; reflexivity|]. unfold vval, vzero. cbn [fx fy fz]. rewrite fneg_val, (proj2 of_int_0). f_equal; lra. Qed.

(** What SO3::exp makes from a vector and what it makes from the opposite vector are inverse
    to each other, bit for bit; so are what the constructor makes from a quaternion and its
    conjugate, and opposite quaternions give the same. *)
Theorem c66_opposite : (forall v m, fso3_exp (fvneg v) (fmtrans m) <-> fso3_exp v m) /\
  (forall q, fquaternion (fconjugate q) = fmtrans (fquaternion q)) /\ (forall q, fquaternion (fopposite q) = fquaternion q).
Proof. exact (conj exp_opposite_iff (conj quaternion_conjugate quaternion_opposite)). Qed.
Print Assumptions c66_opposite.
Example c66_opposite_case : exists m, fso3_exp (ivec 1 2 2) m /\ fso3_exp (fvneg (ivec 1 2 2)) (fmtrans m).
Proof. destruct (some_exp (ivec 1 2 2)) as [m M]. exists m. split; [exact M|]. apply exp_opposite_iff, M. Qed.

(** Whatever is built by products and inverses from such rotations stays as near to the exact
    result as the number of steps says. *)
Theorem c66_composed : forall l x, every (made_by_exp l) x -> l <= 2 ^ 490 -> bound ((51 + 4 * l) * u) x <= 1 / 10 ->
  forall p, rotation_of (rmap fst x) p ->
  mfinite p /\ is_rotation (exact_rotation (rmap snd x)) /\ apart (mval p) (exact_rotation (rmap snd x)) <= 10 / 9 * bound ((51 + 4 * l) * u) x.
Proof. exact (fun l x E L B p P => composed_exps l x p E L B P). Qed.
Print Assumptions c66_composed.
Example c66_composed_case : exists x, every (made_by_exp 3) x /\ 3 <= 2 ^ 490 /\ bound ((51 + 4 * 3) * u) x <= 1 / 10 /\ products x = 1%nat.
Proof.
  destruct exp_case as (F & N & _ & R & _). destruct (some_exp (ivec 1 2 2)) as [m M].
  assert (E : made_by_exp 3 (m, turning 3 (V3 (1 / 3) (2 / 3) (2 / 3)))) by (exists (ivec 1 2 2); split; [exact F|]; split; [rewrite N; lra|]; split; [exact R|exact M]).
  exists (RProduct (RGiven (m, turning 3 (V3 (1 / 3) (2 / 3) (2 / 3)))) (RGiven (m, turning 3 (V3 (1 / 3) (2 / 3) (2 / 3))))).
  split; [split; exact E|]. split; [apply pow_490|]. split; [|reflexivity]. unfold bound. cbn [givens products INR Nat.add]. rewrite u_num. lra.
Qed.

(** The rotation made from a quaternion within [e] of a unit quaternion. *)
Theorem c66_quaternion : forall q w p e, qfinite q -> w * w + dot p p = 1 -> qoff q w p <= e -> e <= / 100 ->
  stands_for (16 * u + 123 / 10 * e) (fquaternion q, quaternion_matrix w p).
Proof. exact quaternion_near. Qed.
Print Assumptions c66_quaternion.
Theorem c66_quaternion_turns : forall t n, norm n = 1 -> quaternion_matrix (cos (t / 2)) (vscale (sin (t / 2)) n) = turning t n.
Proof. exact quaternion_turning. Qed.
Print Assumptions c66_quaternion_turns.
(** 0.6 + 0.8 k, rounded. *)
Example c66_quaternion_case : let q := FQ (quotient 3 5) (of_int 0) (of_int 0) (quotient 4 5) in
  qfinite q /\ 3 / 5 * (3 / 5) + dot (V3 0 0 (4 / 5)) (V3 0 0 (4 / 5)) = 1 /\ qoff q (3 / 5) (V3 0 0 (4 / 5)) <= 2 * u /\ 2 * u <= / 100.
Proof. exact quaternion_case. Qed.

(** SO3::exp of a finite vector with an entry of 2^512 or more consists of NaNs. *)
Theorem c66_exp_finite_refuted : forall v, vfinite v -> 2 ^ 512 <= Rabs (val (fx v)) \/ 2 ^ 512 <= Rabs (val (fy v)) \/ 2 ^ 512 <= Rabs (val (fz v)) ->
  (exists m, fso3_exp v m) /\ forall m, fso3_exp v m -> m = FM B754_nan B754_nan B754_nan B754_nan B754_nan B754_nan B754_nan B754_nan B754_nan.
Proof. exact (fun v F H => conj (some_exp v) (fun m => exp_nan v m F H)). Qed.
Print Assumptions c66_exp_finite_refuted.
Example c66_exp_finite_case : let v := FV (NrmSpec.double 1 600) (of_int 0) (of_int 0) in vfinite v /\ 2 ^ 512 <= Rabs (val (fx v)).
Proof. exact long_case. Qed.

(** The constructor from a quaternion neither checks nor enforces that it is a unit
    quaternion: two k gives a matrix far from every rotation. *)
Theorem c66_any_quaternion_refuted : exists q, qfinite q /\ 1 <= val (qfz q) /\
  forall r, is_rotation r -> 6 <= apart (mval (fquaternion q)) r.
Proof. exact two_k. Qed.
Print Assumptions c66_any_quaternion_refuted.
