(** C87: adjoints, brackets and distances in double precision. *)
From Coq Require Import Reals Psatz List.
From Flocq Require Import Core BinarySingleNaN.
From Verif Require Import Cpp FloatModel FloatSpec NrmSpec Vec RotSpec DriftModel DriftSpec DriftProofs DriftProofs2 SpinModel SpinSpec SpinProofs2 TwistModel TwistProofs3 TlogModel TlogProofs6 SlogModel SlogProofs8 FpsModel FmjModel FapModel FapProofs4 FapProofs5 AdjModel AdjSpec AdjProofs AdjProofs2 AdjProofs3 AdjProofs4 AdjProofs5 AdjProofs6 AdjProofs7.
Local Open Scope R_scope.

(** The brackets of two elements in the two orders are exactly opposite, entry by entry,
    whatever the entries are, infinities and NaN too. *)
Theorem c87_opposite : (forall a b, vboth opposite (fcross a b) (fcross b a)) /\ (forall a b, tboth opposite (flie_bracket a b) (flie_bracket b a)).
Proof. exact (conj cross_opposite bracket_opposite). Qed.
Print Assumptions c87_opposite.
Example c87_opposite_case : vval (fcross (ivec 1 2 2) (ivec 4 (-3) 0)) = V3 6 8 (-11) /\ vval (fcross (ivec 4 (-3) 0) (ivec 1 2 2)) = V3 (-6) (-8) 11.
Proof. exact bracket_case. Qed.

(** So the check that their sum is near zero passes exactly if the bracket is finite, and it is
    if no entry is over 2^490. *)
Theorem c87_opposite_test : (forall a b, so3_anticommutes a b = true <-> vfinite (fcross a b)) /\ (forall a b, se3_anticommutes a b = true <-> tfinite (flie_bracket a b)) /\
  forall a b, tfinite a -> tfinite b -> twithin (2 ^ 490) a -> twithin (2 ^ 490) b -> se3_anticommutes a b = true /\ so3_anticommutes (frot_part a) (frot_part b) = true.
Proof. exact (conj so3_check (conj se3_check small_checks)). Qed.
Print Assumptions c87_opposite_test.
Example c87_opposite_test_case : let a := FT (ivec 1 2 2) (ivec 4 (-3) 0) in tfinite a /\ twithin 4 a /\ twithin (2 ^ 490) a.
Proof. exact (conj (proj1 small_case) (proj2 small_case)). Qed.

(** The bracket of one with itself has only zeros and NaN for entries, and only zeros if no
    entry is over 2^490. *)
Theorem c87_self : (forall a, Forall (fun x => x = B754_nan \/ (finite x /\ val x = 0)) (ftcoords (flie_bracket a a))) /\
  forall a, tfinite a -> twithin (2 ^ 490) a -> Forall (fun x => finite x /\ val x = 0) (ftcoords (flie_bracket a a)).
Proof. exact (conj self_bracket self_small). Qed.
Print Assumptions c87_self.
Example c87_self_case : let a := FT (ivec 1 2 2) (ivec 4 (-3) 0) in tfinite a /\ twithin (2 ^ 490) a.
Proof. exact (conj (proj1 small_case) (proj2 (proj2 small_case))). Qed.

(** It is not zero for every finite element, though. *)
Theorem c87_self_refuted : exists a, vfinite a /\ fz (fcross a a) = B754_nan /\ so3_anticommutes a a = false.
Proof. exact self_nan. Qed.
Print Assumptions c87_self_refuted.

(** The adjoint matrix of a rotation vector times another one is the bracket, with the same
    values in every entry, and the check of it passes exactly if the bracket is finite. *)
Theorem c87_matrix : forall a b, vfinite b -> ((exists r, fso3_matrix_times a b r) /\ forall r, fso3_matrix_times a b r -> vboth alike r (fcross a b)) /\
  forall c, so3_algebra_agrees a b c -> (c = true <-> vfinite (fcross a b)).
Proof. exact (fun a b B => conj (conj (some_fmvec _ _) (fun r => matrix_bracket a b r B)) (fun c => so3_algebra_check a b c B)). Qed.
Print Assumptions c87_matrix.
Example c87_matrix_case : vfinite (ivec 4 (-3) 0) /\ vfinite (fcross (ivec 1 2 2) (ivec 4 (-3) 0)).
Proof. exact matrix_case. Qed.

(** Of six-vectors the two routes differ by forty units in the last place of the products at
    most, and the check passes if no entry is over 400. *)
Theorem c87_matrix_pose : forall a b B, tfinite a -> tfinite b -> twithin B a -> twithin B b -> 0 <= B <= 2 ^ 490 ->
  ((exists r, fmap6_times (fse3_algebra_adjoint a) b r) /\
   forall r, fmap6_times (fse3_algebra_adjoint a) b r -> tboth (fun x y => finite x /\ finite y /\ Rabs (val x - val y) <= 40 * (u * (B * B)) + 12 * h) (flie_bracket a b) r) /\
  (B <= 400 -> (exists c, se3_algebra_agrees a b c) /\ forall c, se3_algebra_agrees a b c -> c = true).
Proof. exact (fun a b B A' B' C D E => conj (conj (some_map6 _ _) (rows_near a b B A' B' C D E)) (fun L => conj (some_algebra_agrees a b) (fun c => se3_algebra_check a b B c A' B' C D (conj (proj1 E) L)))). Qed.
Print Assumptions c87_matrix_pose.
Example c87_matrix_pose_case : let a := FT (ivec 1 2 2) (ivec 4 (-3) 0) in tfinite a /\ twithin 4 a /\ 0 <= 4 <= 400.
Proof. split; [exact (proj1 small_case)|]. split; [exact (proj1 (proj2 small_case))|lra]. Qed.

(** Both ways to the adjoint action of a pose, with and without the matrix, are near the exact
    action of the numbers stored. *)
Theorem c87_group_near : forall g r e alg T W V, stands_for e (frot g, r) -> e <= / 1000 -> vfinite (ftrans g) -> tfinite alg -> vwithin T (ftrans g) -> vwithin W (frot_part alg) -> vwithin V (ftrans_part alg) ->
  0 <= T <= 2 ^ 300 -> 0 <= W <= 2 ^ 300 -> 0 <= V <= 2 ^ 300 ->
  let q := mvec (mval (frot g)) (vval (frot_part alg)) in let p := vadd (cross (vval (ftrans g)) q) (mvec (mval (frot g)) (vval (ftrans_part alg))) in
  (forall x, fadjoint_times g alg x -> entries_off (10 * (u * W) + 4 * h) (frot_part x) q /\ entries_off (37 * (u * (T * W)) + 13 * (u * V) + 12 * (h * T) + 8 * h) (ftrans_part x) p) /\
  (forall m x, fse3_adjoint g m -> fmap6_times m alg x -> entries_off (19 * (u * W) + 4 * h) (frot_part x) q /\ entries_off (56 * (u * (T * W)) + 19 * (u * V) + 16 * (h * W) + 7 * h) (ftrans_part x) p).
Proof. exact both_near. Qed.
Print Assumptions c87_group_near.
Example c87_group_near_case : exists g r alg, stands_for (63 * u) (frot g, r) /\ 63 * u <= / 1000 /\ vfinite (ftrans g) /\ norm (vval (ftrans g)) <= 25 /\ tfinite alg /\ norm (vval (frot_part alg)) = 3 /\ norm (vval (ftrans_part alg)) = 5 /\
  / 2 ^ 300 <= 3 <= 2 ^ 290 /\ 5 <= 2 ^ 290.
Proof. exact group_case. Qed.

(** They are near enough for the check of them to pass if the translation is no longer than
    25. *)
Theorem c87_group : forall g r e alg, stands_for e (frot g, r) -> e <= / 1000 -> vfinite (ftrans g) -> norm (vval (ftrans g)) <= 25 -> tfinite alg ->
  / 2 ^ 300 <= norm (vval (frot_part alg)) <= 2 ^ 290 -> norm (vval (ftrans_part alg)) <= 2 ^ 290 ->
  (exists c, se3_group_agrees g alg c) /\ forall c, se3_group_agrees g alg c -> c = true.
Proof. exact (fun g r e alg S E F N A W V => conj (some_group_agrees g alg) (fun c => group_check g alg r e c S E F N A W V)). Qed.
Print Assumptions c87_group.
Example c87_group_case : exists g r alg, stands_for (63 * u) (frot g, r) /\ 63 * u <= / 1000 /\ vfinite (ftrans g) /\ norm (vval (ftrans g)) <= 25 /\ tfinite alg /\ norm (vval (frot_part alg)) = 3 /\ norm (vval (ftrans_part alg)) = 5 /\
  / 2 ^ 300 <= 3 <= 2 ^ 290 /\ 5 <= 2 ^ 290.
Proof. exact group_case. Qed.

(** Composing with a rotation, and composing by the adjoint action on its logarithm, give
    rotations that is_approx holds of. *)
Theorem c87_by_adjoint : forall a b r q e, stands_for e (a, r) -> stands_for e (b, q) -> e <= 8 / 10 ^ 14 ->
  (exists c, so3_by_adjoint a b c) /\ forall c, so3_by_adjoint a b c -> c = true.
Proof. exact (fun a b r q e A B E => conj (some_by_adjoint a b) (fun c => by_adjoint a b r q e c A B E)). Qed.
Print Assumptions c87_by_adjoint.
Example c87_by_adjoint_case : stands_for u (stored_turn 5 12 13, turn 5 12 13) /\ stands_for u (stored_turn 3 4 5, turn 3 4 5) /\ u <= 8 / 10 ^ 14.
Proof. split; [exact turn_5_12_13|]. split; [exact turn_3_4_5|]. rewrite u_num. lra. Qed.

(** The adjoint action of a rotation on its own logarithm leaves it where it was, as isApprox
    sees it, for angles from 1/5 to 3. *)
Theorem c87_noop : forall v, vfinite v -> 1 / 5 <= norm (vval v) <= 3 -> (exists c, so3_noop v c) /\ forall c, so3_noop v c -> c = true.
Proof. exact (fun v F N => conj (some_noop v) (fun c => noop v c F N)). Qed.
Print Assumptions c87_noop.
Example c87_noop_case : vfinite (ivec 1 2 2) /\ norm (vval (ivec 1 2 2)) = 3 /\ 1 / 5 <= 3 <= 3.
Proof. destruct exp_case as (F & N & _). split; [exact F|]. split; [exact N|lra]. Qed.

(** The distance of two poses is the same in both orders, zero if the translations are the same,
    and within four units in the last place of the true one if it is not tiny. *)
Theorem c87_distance : (forall a b, exists d, fse3_distance a b d) /\ (forall a b d, fse3_distance a b d <-> fse3_distance b a d) /\
  (forall a b d, vfinite (ftrans a) -> vfinite (ftrans b) -> vval (ftrans a) = vval (ftrans b) -> fse3_distance a b d -> finite d /\ val d = 0) /\
  forall a b d, vfinite (ftrans a) -> vfinite (ftrans b) -> norm (vval (ftrans a)) <= 2 ^ 488 -> norm (vval (ftrans b)) <= 2 ^ 488 ->
  let true_distance := norm (vsub (vval (ftrans a)) (vval (ftrans b))) in
  / 2 ^ 480 <= true_distance -> fse3_distance a b d -> finite d /\ Rabs (val d - true_distance) <= 4 * u * true_distance.
Proof. exact (conj some_distance (conj distance_sym (conj distance_same distance_near))). Qed.
Print Assumptions c87_distance.
Example c87_distance_case : let a := FP fmid (ivec 1 2 2) in let b := FP fmid (ivec 0 0 0) in vfinite (ftrans a) /\ vfinite (ftrans b) /\ norm (vval (ftrans a)) <= 2 ^ 488 /\ norm (vval (ftrans b)) <= 2 ^ 488 /\
  norm (vsub (vval (ftrans a)) (vval (ftrans b))) = 3 /\ / 2 ^ 480 <= 3.
Proof. exact distance_case. Qed.

(** Translations that differ by no more than 2^-538 in any entry have distance zero, and ones
    that differ by 2^512 in one have an infinite distance. *)
Theorem c87_distance_extremes : (forall a b d, vfinite (ftrans a) -> vfinite (ftrans b) ->
   Rabs (val (fx (ftrans a)) - val (fx (ftrans b))) <= / 2 ^ 538 -> Rabs (val (fy (ftrans a)) - val (fy (ftrans b))) <= / 2 ^ 538 -> Rabs (val (fz (ftrans a)) - val (fz (ftrans b))) <= / 2 ^ 538 ->
   fse3_distance a b d -> finite d /\ val d = 0) /\
  forall a b d, vfinite (ftrans a) -> vfinite (ftrans b) -> vwithin (2 ^ 1000) (ftrans a) -> vwithin (2 ^ 1000) (ftrans b) ->
   2 ^ 512 <= Rabs (val (fx (ftrans a)) - val (fx (ftrans b))) \/ 2 ^ 512 <= Rabs (val (fy (ftrans a)) - val (fy (ftrans b))) \/ 2 ^ 512 <= Rabs (val (fz (ftrans a)) - val (fz (ftrans b))) ->
   fse3_distance a b d -> d = B754_infinity false.
Proof. exact (conj distance_tiny distance_huge). Qed.
Print Assumptions c87_distance_extremes.
Example c87_distance_extremes_case : let a := FP fmid (FV (NrmSpec.double 1 600) (of_int 0) (of_int 0)) in let b := FP fmid (ivec 0 0 0) in vfinite (ftrans a) /\ vfinite (ftrans b) /\ vwithin (2 ^ 1000) (ftrans a) /\ vwithin (2 ^ 1000) (ftrans b) /\
  2 ^ 512 <= Rabs (val (fx (ftrans a)) - val (fx (ftrans b))).
Proof. exact huge_case. Qed.

(** So distance zero does not mean the same translation. *)
Theorem c87_distance_refuted : exists a b, vfinite (ftrans a) /\ vfinite (ftrans b) /\ vval (ftrans a) <> vval (ftrans b) /\ forall d, fse3_distance a b d -> finite d /\ val d = 0.
Proof. exact distance_lost. Qed.
Print Assumptions c87_distance_refuted.
