(** Composition of SO3 and SE3 in double precision: C64 and C65. *)
From Coq Require Import Reals Psatz.
From Flocq Require Import Core BinarySingleNaN.
From Verif Require Import Cpp FloatModel FloatSpec NrmSpec Vec RotSpec DriftModel DriftSpec DriftProofs DriftProofs2.
Local Open Scope R_scope.

(** ** C64 *)
(** Whatever is built from rotations within [e] of what they stand for, by products and
    inverses in any order and summed by Eigen in either order, has finite entries and lies
    within ten ninths of [e] per rotation and eleven units in the last place per product of
    the exact result, as long as that sum is at most a tenth. *)
Theorem c64_error : forall e x, every (stands_for e) x -> bound e x <= 1 / 10 ->
  (exists p, rotation_of (rmap fst x) p) /\
  forall p, rotation_of (rmap fst x) p ->
  mfinite p /\ is_rotation (exact_rotation (rmap snd x)) /\ apart (mval p) (exact_rotation (rmap snd x)) <= 10 / 9 * bound e x.
Proof. exact (fun e x H B => conj (some_rotation _) (fun p => composed_close e x p H B)). Qed.
Print Assumptions c64_error.
(** A million turns by the angle with cosine 5/13. *)
Example c64_error_case : exists x : rexpr (fmat * mat3), every (stands_for u) x /\ bound u x <= 1 / 10 /\ Z.of_nat (products x) = 1000000%Z.
Proof.
  set (n := Z.to_nat 1000000). exists (repeatedly n (stored_turn 5 12 13, turn 5 12 13)).
  assert (E : forall n, every (stands_for u) (repeatedly n (stored_turn 5 12 13, turn 5 12 13))).
  { clear n. induction n as [|n IH]; cbn [repeatedly every]; [exact turn_5_12_13|]. split; [exact IH|exact turn_5_12_13]. }
  assert (N : forall n (a : fmat * mat3), products (repeatedly n a) = n).
  { clear n E. induction n as [|n IH]; intro a; cbn [repeatedly products]; [reflexivity|]. rewrite IH. lia. }
  split; [apply E|]. split.
  - unfold bound. rewrite one_product, N, S_INR, INR_IZR_INZ. unfold n. rewrite Z2Nat.id by lia. rewrite u_num. lra.
  - rewrite N. unfold n. rewrite Z2Nat.id by lia. reflexivity.
Qed.

(** Vectors are rotated by it with such a relative error, and keep their lengths so. *)
Theorem c64_vectors : forall e x p v w, every (stands_for e) x -> bound e x <= 1 / 10 -> rotation_of (rmap fst x) p ->
  vfinite v -> norm (vval v) <= 2 ^ 995 -> fmvec p v w ->
  vfinite w /\
  norm (vsub (vval w) (mvec (exact_rotation (rmap snd x)) (vval v))) <= (10 / 9 * bound e x + 6 * u) * norm (vval v) + 7 * bpow radix2 (-1075) /\
  Rabs (norm (vval w) - norm (vval v)) <= (10 / 9 * bound e x + 6 * u) * norm (vval v) + 7 * bpow radix2 (-1075).
Proof.
  exact (fun e x p v w H B P F N V => conj (proj1 (composed_rotates e x p v w H B P F N V)) (conj (proj2 (composed_rotates e x p v w H B P F N V)) (length_kept e x p v w H B P F N V))).
Qed.
Print Assumptions c64_vectors.
Example c64_vectors_case : exists x v, every (stands_for u) x /\ bound u x <= 1 / 10 /\ products x = 1%nat /\ vfinite v /\ 3 <= norm (vval v) <= 2 ^ 995.
Proof.
  exists (RProduct (RGiven (stored_turn 5 12 13, turn 5 12 13)) (RInverse (RGiven (stored_turn 3 4 5, turn 3 4 5)))), (FV (of_int 3) (of_int 0) (of_int 0)).
  split; [split; [exact turn_5_12_13|exact turn_3_4_5]|]. split; [unfold bound; cbn [givens products INR Nat.add]; rewrite u_num; lra|]. split; [reflexivity|].
  split; [repeat split; reflexivity|]. assert (V : val (of_int 3) = 3) by (rewrite (proj2 (FloatProofs.of_int_val 3 (FloatProofs.int_no_overflow 3 ltac:(lia)))); apply FloatProofs.rd_int; lia).
  assert (N : norm (vval (FV (of_int 3) (of_int 0) (of_int 0))) = 3).
  { unfold norm, norm2, dot, vval. cbn [fx fy fz vx vy vz]. rewrite V. change (val (of_int 0)) with 0. replace (3 * 3 + 0 * 0 + 0 * 0) with (3 * 3) by ring. apply sqrt_square. lra. }
  rewrite N. split; [lra|]. apply Rle_trans with (2 ^ 2); [lra|]. apply Rle_pow; [lra|lia].
Qed.

(** Its columns stay orthonormal to within five halves of the bound. *)
Theorem c64_right_angles : forall e x p, every (stands_for e) x -> bound e x <= 1 / 10 -> rotation_of (rmap fst x) p ->
  apart (mmul (mtrans (mval p)) (mval p)) mid <= 5 / 2 * bound e x.
Proof. exact right_angles. Qed.
Print Assumptions c64_right_angles.
Example c64_right_angles_case : every (stands_for u) (RGiven (stored_turn 3 4 5, turn 3 4 5)) /\ bound u (RGiven (stored_turn 3 4 5, turn 3 4 5)) <= 1 / 10.
Proof. split; [exact turn_3_4_5|]. unfold bound. cbn [givens products INR]. rewrite u_num. lra. Qed.

(** The only rotations that doubles store exactly have entries -1, 0 and 1. *)
Theorem c64_exact_entries : forall a, exactly a ->
  a_sign (val (f00 a)) /\ a_sign (val (f01 a)) /\ a_sign (val (f02 a)) /\ a_sign (val (f10 a)) /\ a_sign (val (f11 a)) /\ a_sign (val (f12 a)) /\
  a_sign (val (f20 a)) /\ a_sign (val (f21 a)) /\ a_sign (val (f22 a)).
Proof. exact (fun a H => exact_entries a (proj2 H)). Qed.
Print Assumptions c64_exact_entries.

(** Built from those alone, nothing is rounded: products, inverses and rotated vectors are
    exact, and whatever is built is again stored exactly. *)
Theorem c64_quarter_turns : forall x p, every exactly x -> rotation_of x p ->
  exactly p /\ mval p = exact_rotation (rmap mval x) /\ forall v w, vfinite v -> fmvec p v w -> vfinite w /\ vval w = mvec (mval p) (vval v).
Proof. exact (fun x p H P => conj (proj1 (exact_composed x p H P)) (conj (proj2 (exact_composed x p H P)) (fun v w => exact_act p v w (proj1 (exact_composed x p H P))))). Qed.
Print Assumptions c64_quarter_turns.
(** The quarter turn about the third axis. *)
Example c64_quarter_turns_case : exactly (stored_turn 0 1 1) /\ val (f01 (stored_turn 0 1 1)) = -1.
Proof.
  destruct of_int_0 as [F0 V0], of_int_1 as [F1 V1].
  assert (Q0 : val (quotient 0 1) = 0) by (rewrite FloatProofs.val_sf; replace (B2SF (quotient 0 1)) with (SpecFloat.S754_zero false) by (vm_compute; reflexivity); reflexivity).
  assert (Q1 : val (quotient 1 1) = 1) by (rewrite FloatProofs.val_sf; replace (B2SF (quotient 1 1)) with (SpecFloat.S754_finite false 4503599627370496 (-52)) by (vm_compute; reflexivity);
    rewrite sf_value; cbn [cond_Zopp]; change (bpow radix2 (-52)) with (/ 4503599627370496); lra).
  assert (Qm : val (quotient (-(1)) 1) = -1) by (rewrite FloatProofs.val_sf; replace (B2SF (quotient (-(1)) 1)) with (SpecFloat.S754_finite true 4503599627370496 (-52)) by (vm_compute; reflexivity);
    rewrite sf_value; cbn [cond_Zopp Z.opp]; change (bpow radix2 (-52)) with (/ 4503599627370496); lra).
  split; [|exact Qm]. split; [repeat split; reflexivity|]. unfold mval, stored_turn. cbn [f00 f01 f02 f10 f11 f12 f20 f21 f22]. rewrite Q0, Q1, Qm, V0, V1.
  split; [unfold mmul, mtrans, mid|unfold det]; cbn [m00 m01 m02 m10 m11 m12 m20 m21 m22]; [f_equal|]; ring.
Qed.

(** That the error stays below some bound however many products are taken is false: it can
    grow by the same amount with every product. *)
Theorem c64_bounded_drift_refuted : exists g : fmat * mat3, stands_for (2 * / 2 ^ 52) g /\
  forall n p, (Z.of_nat n < 2 ^ 51)%Z -> rotation_of (rmap fst (repeatedly n g)) p ->
  apart (mval p) (exact_rotation (rmap snd (repeatedly n g))) = sqrt 3 * (INR (S n) * / 2 ^ 52).
Proof. exact (ex_intro _ (stretched, mid) (conj stretched_stands drift_apart)). Qed.
Print Assumptions c64_bounded_drift_refuted.

(** That a rotation times its inverse is the identity is false. *)
Theorem c64_inverse_refuted : exists g : fmat * mat3, stands_for u g /\
  forall p, rotation_of (RProduct (RGiven (fst g)) (RInverse (RGiven (fst g)))) p -> val (f00 p) = 1 + / 2 ^ 52.
Proof. exact (ex_intro _ (stored_turn 5 12 13, turn 5 12 13) (conj turn_5_12_13 inverse_off)). Qed.
Print Assumptions c64_inverse_refuted.

(** That products may be regrouped is false. *)
Theorem c64_associative_refuted : exists g k : fmat * mat3, stands_for u g /\ stands_for u k /\
  forall p q, rotation_of (RProduct (RProduct (RGiven (fst g)) (RGiven (fst k))) (RGiven (fst k))) p ->
  rotation_of (RProduct (RGiven (fst g)) (RProduct (RGiven (fst k)) (RGiven (fst k)))) q -> val (f00 q) < val (f00 p).
Proof. exact (ex_intro _ (stored_turn 5 12 13, turn 5 12 13) (ex_intro _ (stored_turn 3 4 5, turn 3 4 5) (conj turn_5_12_13 (conj turn_3_4_5 grouping)))). Qed.
Print Assumptions c64_associative_refuted.

(** ** C65 *)
(** The rotation of a composed pose obeys the bound of C64; its translation is off by at most
    twice the weight times the total length of the translations given. *)
Theorem c65_error : forall e x, every (pose_stands_for e) x -> weight e x <= 1 / 10 -> reach x <= 2 ^ 900 ->
  (exists p, pose_of (rmap g_pose x) p) /\
  forall p, pose_of (rmap g_pose x) p ->
  mfinite (frot p) /\ vfinite (ftrans p) /\
  apart (mval (frot p)) (fst (exact_pose (rmap g_exact x))) <= 10 / 9 * bound e x /\
  norm (vsub (vval (ftrans p)) (snd (exact_pose (rmap g_exact x)))) <= 2 * weight e x * reach x.
Proof. exact pose_error. Qed.
Print Assumptions c65_error.
(** The relative pose of two poses, as DCurve forms it. *)
Example c65_error_case : exists x, every (pose_stands_for u) x /\ weight u x <= 1 / 10 /\ reach x <= 2 ^ 900 /\
  exists g k, rmap g_pose x = RProduct (RInverse (RGiven g)) (RGiven k) /\ val (fx (ftrans g)) = 0 /\ val (fx (ftrans k)) = 1.
Proof. exact pose_case. Qed.

(** Points are moved by it with an error in proportion to the lengths given and their own. *)
Theorem c65_points : forall e x p v w, every (pose_stands_for e) x -> weight e x <= 1 / 10 -> reach x <= 2 ^ 900 -> pose_of (rmap g_pose x) p ->
  vfinite v -> norm (vval v) <= 2 ^ 900 -> fpose_act p v w ->
  vfinite w /\ norm (vsub (vval w) (vadd (mvec (fst (exact_pose (rmap g_exact x))) (vval v)) (snd (exact_pose (rmap g_exact x))))) <=
    (2 * weight e x + 2 * u) * reach x + (10 / 9 * bound e x + 8 * u) * norm (vval v).
Proof. exact pose_acts. Qed.
Print Assumptions c65_points.
Example c65_points_case : exists p v w, vfinite v /\ fpose_act p v w /\ val (fx w) = 2 /\ val (fx (ftrans p)) = 1.
Proof. exact point_case. Qed.

(** That a pose times its inverse leaves no translation is false. *)
Theorem c65_inverse_refuted : exists g, pose_stands_for u g /\
  forall p, pose_of (RProduct (RGiven (g_pose g)) (RInverse (RGiven (g_pose g)))) p -> val (fx (ftrans p)) = - / 2 ^ 52.
Proof. exact pose_inverse_fails. Qed.
Print Assumptions c65_inverse_refuted.
