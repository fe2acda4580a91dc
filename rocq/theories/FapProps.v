(** C85: approximate comparisons in double precision. *)
From Coq Require Import Reals Psatz List.
From Flocq Require Import Core BinarySingleNaN.
From Verif Require Import Cpp FloatModel FloatSpec NrmSpec Vec RotSpec DriftModel DriftSpec DriftProofs DriftProofs2 SpinModel SpinSpec SpinProofs2 TwistModel TwistProofs3 TlogModel TlogProofs5 TlogProofs6 SlogModel SlogProofs6 SlogProofs7 SlogProofs8 FapModel FapSpec FapProofs FapProofs2 FapProofs3 FapProofs4 FapProofs5.
Local Open Scope R_scope.

(** isApprox of vectors of ordinary length says yes if they are less than one part in 10^12
    of the shorter apart, and no if they are more than that apart, but for sixteen units in the
    last place; well below the limit it says yes to short vectors too. *)
Theorem c85_vectors : forall v w, vfinite v -> vfinite w -> norm (vval v) <= 2 ^ 490 -> norm (vval w) <= 2 ^ 490 ->
  let off := norm (vsub (vval v) (vval w)) in let m := Rmin (norm (vval v)) (norm (vval w)) in
  (exists c, fvec_is_approx v w c) /\
  forall c, fvec_is_approx v w c ->
  (/ 2 ^ 400 <= m -> off <= (1 - 16 * u) * tolerance * m -> c = true) /\ (/ 2 ^ 400 <= m -> (1 + 16 * u) * tolerance * m <= off -> c = false) /\
  (4 * off <= tolerance * m -> c = true).
Proof. exact (fun v w V W A B => conj (approx_some _ _) (fun c => vec_decides v w c V W A B)). Qed.
Print Assumptions c85_vectors.
Example c85_vectors_case : let v := ivec 1000000000000000 0 0 in let w := ivec 1000000000000800 0 0 in
  vfinite v /\ vfinite w /\ norm (vval v) = 1000000000000000 /\ norm (vval w) = 1000000000000800 /\ norm (vsub (vval v) (vval w)) = 800.
Proof.
  destruct (int_axis 1000000000000000 ltac:(cbn; lia)) as (F1 & V1 & N1). destruct (int_axis 1000000000000800 ltac:(cbn; lia)) as (F2 & V2 & N2). rewrite Rabs_right in N1, N2 by lra.
  split; [exact F1|]. split; [exact F2|]. split; [exact N1|]. split; [exact N2|]. rewrite V1, V2. apply norm_is; [lra|unfold dot, vsub; cbn [vx vy vz]; lra].
Qed.

(** is_approx of stored rotations goes by the distance of the rotations they stand for. *)
Theorem c85_rotations : forall e f a b r s, stands_for e (a, r) -> stands_for f (b, s) -> e + f <= / 10 ^ 6 ->
  (exists c, fso3_is_approx a b c) /\
  forall c, fso3_is_approx a b c ->
  (apart r s + (e + f) <= 1732 / 1000 * tolerance -> c = true) /\ (1733 / 1000 * tolerance + (e + f) <= apart r s -> c = false).
Proof. exact (fun e f a b r s A B H => conj (approx_some _ _) (fun c => rot_compare e f a b r s c A B H)). Qed.
Print Assumptions c85_rotations.
Example c85_rotations_case : stands_for u (stored_turn 5 12 13, turn 5 12 13) /\ stands_for u (stored_turn 3 4 5, turn 3 4 5) /\ u + u <= / 10 ^ 6 /\
  apart (turn 5 12 13) (turn 5 12 13) + (u + u) <= 1732 / 1000 * tolerance.
Proof. split; [exact turn_5_12_13|]. split; [exact turn_3_4_5|]. rewrite apart_self, tolerance_num, u_num. lra. Qed.

(** Two ways of composing rotations compare as the exact results do, as long as the sum of
    their errors is within the limit: a rotation times its inverse is_approx the identity, and
    regrouped products are. *)
Theorem c85_compositions : forall e x y p q c, every (stands_for e) x -> every (stands_for e) y -> 10 / 9 * (bound e x + bound e y) <= / 10 ^ 6 ->
  rotation_of (rmap fst x) p -> rotation_of (rmap fst y) q -> fso3_is_approx p q c ->
  let D := apart (exact_rotation (rmap snd x)) (exact_rotation (rmap snd y)) in let E := 10 / 9 * (bound e x + bound e y) in
  (D + E <= 1732 / 1000 * tolerance -> c = true) /\ (1733 / 1000 * tolerance + E <= D -> c = false).
Proof. exact compositions. Qed.
Print Assumptions c85_compositions.
(** A turn times its inverse, and the identity. *)
Example c85_compositions_case : let g := (stored_turn 5 12 13, turn 5 12 13) in let x := RProduct (RGiven g) (RInverse (RGiven g)) in let y := RGiven (fmid, mid) in
  every (stands_for u) x /\ every (stands_for u) y /\ apart (exact_rotation (rmap snd x)) (exact_rotation (rmap snd y)) = 0 /\ 10 / 9 * (bound u x + bound u y) <= 1732 / 1000 * tolerance.
Proof.
  cbn [every rmap exact_rotation fst snd]. split; [split; exact turn_5_12_13|]. split; [apply (stands_weaker 0); [exact fmid_stands|rewrite u_num; lra]|]. split.
  - replace (mmul (turn 5 12 13) (mtrans (turn 5 12 13))) with mid; [apply apart_self|]. symmetry. exact (RotProofs.rot_mtrans_r _ (proj1 (proj2 turn_5_12_13))).
  - unfold bound. cbn [givens products Nat.add INR]. rewrite tolerance_num, u_num. lra.
Qed.

(** The checks of the test of the Lie groups hold of all rotations stored well enough, half
    turns and all, except that the logarithm of a small rotation is not compared. *)
Theorem c85_round_trips : forall m r e, stands_for e (m, r) -> e <= 18 * / 10 ^ 14 ->
  (forall v p c, fso3_log m v -> fso3_exp v p -> fso3_is_approx p m c -> c = true) /\
  (forall p c, fso3_interp m (of_int 0) p -> fso3_is_approx p fmid c -> c = true) /\
  (forall p c, fso3_interp m (of_int 1) p -> fso3_is_approx p m c -> c = true).
Proof. exact (fun m r e S H => conj (fun v p c => exp_log_same m r e v p c S H) (conj (fun p c I => proj1 (interp_ends_same m r e p S H) I c) (fun p c I => proj2 (interp_ends_same m r e p S H) I c))). Qed.
Print Assumptions c85_round_trips.
Theorem c85_exponentials : forall v m, vfinite v -> fso3_exp v m ->
  (norm (vval v) <= 1900 -> forall p c, fso3_exp (fvneg v) p -> fso3_is_approx (fmtrans m) p c -> c = true) /\
  (15 / 100 <= norm (vval v) <= 3 -> forall w c, fso3_log m w -> fvec_is_approx w v c -> c = true).
Proof. exact (fun v m F M => conj (fun N p c => opposite_same v m p c F N M) (fun N w c => log_exp_same v m w c F N M)). Qed.
Print Assumptions c85_exponentials.
(** Three radians about (1, 2, 2) / 3. *)
Example c85_round_trips_case : exists m v, vfinite (ivec 1 2 2) /\ norm (vval (ivec 1 2 2)) = 3 /\ fso3_exp (ivec 1 2 2) m /\ fso3_log m v /\
  stands_for (63 * u) (m, turning 3 (V3 (1 / 3) (2 / 3) (2 / 3))) /\ 63 * u <= 18 * / 10 ^ 14.
Proof.
  destruct exp_case as (F & N & _). destruct log_case as (m & v & M & L & S & _). exists m, v. split; [exact F|]. split; [exact N|]. split; [exact M|]. split; [exact L|]. split; [exact S|]. rewrite u_num. lra.
Qed.

(** The same checks hold of poses, however short or long their translations up to 2^489. *)
Theorem c85_pose_round_trips : forall g r e, stands_for e (frot g, r) -> e <= 18 * / 10 ^ 14 -> vfinite (ftrans g) -> norm (vval (ftrans g)) <= 2 ^ 489 ->
  (forall w v p c, fse3_log g w v -> fse3_exp w v p -> fse3_is_approx p g c -> c = true) /\
  (forall p c, fse3_interp g (of_int 0) p -> fse3_is_approx p fpose_identity c -> c = true) /\
  (forall p c, fse3_interp g (of_int 1) p -> fse3_is_approx p g c -> c = true).
Proof. exact (fun g r e S H F B => conj (fun w v p c => pose_exp_log_same g r e w v p c S H F B) (conj (fun p c I => proj1 (pose_interp_ends_same g r e p S H F B) I c) (fun p c I => proj2 (pose_interp_ends_same g r e p S H F B) I c))). Qed.
Print Assumptions c85_pose_round_trips.
Example c85_pose_round_trips_case : exists g w v p, stands_for (63 * u) (frot g, turning 3 (V3 (1 / 3) (2 / 3) (2 / 3))) /\ 63 * u <= 18 * / 10 ^ 14 /\ vfinite (ftrans g) /\ norm (vval (ftrans g)) <= 2 ^ 489 /\
  fse3_log g w v /\ fse3_exp w v p.
Proof.
  destruct se3_case as (g & _ & S & _ & F & T & _). destruct (some_se3_log g) as (w & v & L). destruct (some_se3_exp w v) as [p X]. exists g, w, v, p. split; [exact S|]. split; [rewrite u_num; lra|]. split; [exact F|].
  split; [apply Rle_trans with (2 ^ 3); [lra|apply Rle_pow; [lra|apply Nat.leb_le; reflexivity]]|]. split; [exact L|exact X].
Qed.

(** Two ways of composing the same pose compare alike if the translation that remains is long
    enough for the errors made on the way. *)
Theorem c85_pose_compositions : forall e x y p q c, every (pose_stands_for e) x -> every (pose_stands_for e) y -> weight e x <= 1 / 10 -> weight e y <= 1 / 10 -> reach x <= 2 ^ 900 -> reach y <= 2 ^ 900 ->
  pose_of (rmap g_pose x) p -> pose_of (rmap g_pose y) q -> exact_pose (rmap g_exact x) = exact_pose (rmap g_exact y) ->
  10 / 9 * (bound e x + bound e y) <= 1732 / 1000 * tolerance ->
  let t := norm (snd (exact_pose (rmap g_exact x))) in t <= 2 ^ 489 -> 10 * (weight e x * reach x + weight e y * reach y) <= tolerance * t ->
  fse3_is_approx p q c -> c = true.
Proof. exact pose_compositions. Qed.
Print Assumptions c85_pose_compositions.
Example c85_pose_compositions_case : exists x, every (pose_stands_for u) x /\ weight u x <= 1 / 10 /\ reach x <= 2 ^ 900 /\ 10 / 9 * (bound u x + bound u x) <= 1732 / 1000 * tolerance /\
  norm (snd (exact_pose (rmap g_exact x))) = 1 /\ 10 * (weight u x * reach x + weight u x * reach x) <= tolerance * 1.
Proof.
  eexists (RGiven _). split; [exact axis_given|]. unfold weight, bound. cbn [nesting operations givens products reach g_length rmap exact_pose g_exact snd g_translation INR].
  split; [rewrite u_num; lra|]. split; [apply Rle_trans with (2 ^ 1); [lra|apply Rle_pow; [lra|apply Nat.leb_le; reflexivity]]|]. rewrite tolerance_num. split; [rewrite u_num; lra|]. split; [rewrite unit_x by apply of_int_1; apply Rabs_R1|rewrite u_num; lra].
Qed.

(** Comparing with zero says yes just if the squares of all entries round to zero. *)
Theorem c85_zero : forall v w c, vfinite v -> vfinite w -> vval w = vzero -> fvec_is_approx v w c ->
  (c = true <-> val (fx v) ^ 2 <= / 2 ^ 1075 /\ val (fy v) ^ 2 <= / 2 ^ 1075 /\ val (fz v) ^ 2 <= / 2 ^ 1075).
Proof. exact zero_decides. Qed.
Print Assumptions c85_zero.
Example c85_zero_case : vfinite (ivec 0 0 0) /\ vval (ivec 0 0 0) = vzero /\ vfinite (ivec 1 2 2) /\ vval (ivec 1 2 2) = V3 1 2 2.
Proof. destruct (ivec_val 0 0 0) as [F V]; try (cbn; lia). destruct (ivec_val 1 2 2) as [G W]; try (cbn; lia). auto. Qed.
(** So a pose times its inverse need not be is_approx the identity. *)
Theorem c85_inverse_refuted : exists g, pose_stands_for u g /\
  forall p c, pose_of (RProduct (RGiven (g_pose g)) (RInverse (RGiven (g_pose g)))) p -> fse3_is_approx p fpose_identity c -> c = false.
Proof. exact inverse_not_identity. Qed.
Print Assumptions c85_inverse_refuted.

(** What is compared with itself is found alike just if it is finite throughout; the order of
    the two does not matter, whatever they hold. *)
Theorem c85_self : (forall v c, fvec_is_approx v v c -> (c = true <-> vfinite v)) /\ (forall m c, fso3_is_approx m m c -> (c = true <-> mfinite m)) /\
  (forall g c, fse3_is_approx g g c -> (c = true <-> pfinite g)).
Proof. exact (conj self_vec (conj self_mat self_pose)). Qed.
Print Assumptions c85_self.
Theorem c85_symmetric : (forall v w c, fvec_is_approx v w c <-> fvec_is_approx w v c) /\ (forall a b c, fso3_is_approx a b c <-> fso3_is_approx b a c) /\
  (forall g k c, fse3_is_approx g k c <-> fse3_is_approx k g c).
Proof. exact (conj swap_vec (conj swap_mat swap_pose)). Qed.
Print Assumptions c85_symmetric.
(** Both answers occur. *)
Example c85_self_case : (exists c, fse3_is_approx fpose_identity fpose_identity c) /\ pfinite fpose_identity /\ exists v, fvec_is_approx v v false.
Proof.
  split; [apply some_pose|]. split; [split; [apply fmid_stands|repeat split; apply of_int_0]|].
  set (v := FV B754_nan (of_int 0) (of_int 0)). exists v. destruct (approx_some (fcoords v) (fcoords v)) as [c C]. destruct c; [|exact C]. apply self_vec in C. destruct (proj1 C eq_refl) as (F & _). discriminate F.
Qed.
(** It is not transitive. *)
Theorem c85_transitive_refuted : exists v w z, vfinite v /\ vfinite w /\ vfinite z /\
  (forall c, fvec_is_approx v w c -> c = true) /\ (forall c, fvec_is_approx w z c -> c = true) /\ (forall c, fvec_is_approx v z c -> c = false).
Proof. exact not_transitive. Qed.
Print Assumptions c85_transitive_refuted.

(** Any two finite vectors with an entry of 2^512 or more each are found alike, and so are
    any two less than 2^-538 apart. *)
Theorem c85_extremes : forall v w c, vfinite v -> vfinite w -> fvec_is_approx v w c ->
  (reaches (2 ^ 512) v -> reaches (2 ^ 512) w -> c = true) /\ (norm (vsub (vval v) (vval w)) <= / 2 ^ 538 -> c = true).
Proof. exact (fun v w c V W C => conj (fun A B => vec_huge v w c V W A B C) (fun H => vec_near v w c V W H C)). Qed.
Print Assumptions c85_extremes.
(** That vectors found alike have about the same direction is false. *)
Theorem c85_direction_refuted : exists v w, vfinite v /\ vfinite w /\ vval w = vneg (vval v) /\ val (fx v) = 2 ^ 600 /\ forall c, fvec_is_approx v w c -> c = true.
Proof. exact opposites. Qed.
Print Assumptions c85_direction_refuted.
