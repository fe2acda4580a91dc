(** C89: the test elements of the Lie groups, and the tests that go over them. *)
From Coq Require Import Reals ZArith Lia Lra List Psatz.
From Flocq Require Import Core BinarySingleNaN.
From Verif Require Import Cpp FloatModel FloatSpec FloatProofs NrmSpec Vec DriftModel DriftSpec DriftProofs DriftProofs2 SpinModel SpinProofs3 TwistModel TlogModel SlogModel FtsModel FpsModel FstModel FapModel FapSpec AdjModel AdjSpec TvModel TvSpec TvProofs TvProofs2 TvProofs4 TvProofs8 TvProofs9.
Import ListNotations.
Local Open Scope R_scope.

(** Less than seven elements are refused, up to 2^31 - 1 are made, and from 2^31 on the int
    that counts them overflows. *)
Theorem c89_count : forall {S} (draw : source S) x y s count,
  ((count < 7)%Z -> so3_algebra_elements draw x s count = Throw /\ se3_algebra_elements draw y s count = Throw) /\
  ((7 <= count < 2 ^ 31)%Z -> (exists l, so3_algebra_elements draw x s count = Ok l /\ Z.of_nat (length l) = count) /\ exists l, se3_algebra_elements draw y s count = Ok l /\ Z.of_nat (length l) = count) /\
  ((2 ^ 31 <= count)%Z -> so3_algebra_elements draw x s count = UB /\ se3_algebra_elements draw y s count = UB).
Proof. exact (fun S => count_both). Qed.
Print Assumptions c89_count.

(** What the elements are, in order: no more than what is drawn and in the order drawn. *)
Theorem c89_so3_elements : forall {S} (draw : source S) x s count l, so3_algebra_elements draw x s count = Ok l ->
  exists rest, l = [thrice (of_int 0); thrice (of_int 1); thrice (fneg (of_int 1)); FV test_large_rotation test_large_rotation (fneg test_large_rotation); fscale test_tiny (drawn3 draw s 0)] ++ rest /\ length rest = (Z.to_nat count - 5)%nat /\
  forall j, (j < Z.to_nat count - 5)%nat -> nth_error rest j = Some (drawn3 draw s (3 + 3 * j)).
Proof. exact (fun S => elements3). Qed.
Print Assumptions c89_so3_elements.
Theorem c89_se3_elements : forall {S} (draw : source S) x s count l, se3_algebra_elements draw x s count = Ok l ->
  exists rest, l = [FT (thrice (of_int 0)) (thrice (of_int 0)); FT (thrice (of_int 1)) (thrice (of_int 1)); FT (thrice (fneg (of_int 1))) (thrice (fneg (of_int 1)));
   FT (FV test_large_rotation test_large_rotation (fneg test_large_rotation)) (fscale test_large (drawn3 draw s 0)); ftscale test_tiny (drawn6 draw s 3)] ++ rest /\ length rest = (Z.to_nat count - 5)%nat /\
  forall j, (j < Z.to_nat count - 5)%nat -> nth_error rest j = Some (drawn6 draw s (9 + 6 * j)).
Proof. exact (fun S => elements6). Qed.
Print Assumptions c89_se3_elements.

(** The group elements are their exponentials, in the same order. *)
Theorem c89_group_elements : (forall l, exists m, so3_group_elements l m) /\ (forall l, exists m, se3_group_elements l m) /\
  (forall l m, so3_group_elements l m -> length m = length l /\ forall i v g, nth_error l i = Some v -> nth_error m i = Some g -> fso3_exp v g) /\
  (forall l m, se3_group_elements l m -> length m = length l /\ forall i a g, nth_error l i = Some a -> nth_error m i = Some g -> fse3_exp (frot_part a) (ftrans_part a) g).
Proof. exact groups. Qed.
Print Assumptions c89_group_elements.

(** The large rotation vector is a rotation by 3.1316 to 3.1318, short of a half turn; the tiny
    scale is within two parts in a million of 10^-6, and the large one is 10^6. *)
Theorem c89_constants :
  (let v := FV test_large_rotation test_large_rotation (fneg test_large_rotation) in vfinite v /\ 31316 / 10000 <= norm (vval v) <= 31318 / 10000) /\ 31318 / 10000 < PI /\
  (finite test_tiny /\ 999998 / 1000000000000 <= val test_tiny <= 1000002 / 1000000000000) /\ finite test_large /\ val test_large = 1000000.
Proof. exact constants. Qed.
Print Assumptions c89_constants.

(** Whatever the generator gives from -1 to 1, every rotation vector is shorter than a half
    turn and every translation has entries up to 10^6. *)
Theorem c89_lengths : forall {S} (draw : source S) x y s count, uniform draw ->
  (forall l, so3_algebra_elements draw x s count = Ok l -> forall v, In v l -> vfinite v /\ norm (vval v) < PI) /\
  (forall l, se3_algebra_elements draw y s count = Ok l -> forall a, In a l -> vfinite (frot_part a) /\ norm (vval (frot_part a)) < PI /\ vfinite (ftrans_part a) /\ vwithin 1000000 (ftrans_part a)).
Proof. exact (fun S => lengths_both). Qed.
Print Assumptions c89_lengths.

(** The tests of SO3 pass for every generator, every number of elements, every order of the
    sums and every result that sin, cos and atan2 may give, on all elements and all pairs. *)
Theorem c89_so3_tests : forall {S} (draw : source S) x s count l m, uniform draw -> so3_algebra_elements draw x s count = Ok l -> so3_group_elements l m ->
  (forall a, In a m -> passes (so3_construction a) /\ passes (so3_interp_zero a) /\ passes (so3_interp_one a) /\ passes (so3_exp_of_log a)) /\
  (forall a b, In a m -> In b m -> passes (so3_by_adjoint a b) /\ forall alg, fso3_log b alg -> passes (so3_group_agrees a alg)) /\
  (forall v, In v l -> passes (so3_inverse_negative v)) /\
  (forall v w, In v l -> In w l -> passes (so3_algebra_agrees v w) /\ so3_anticommutes v w = true).
Proof. exact (fun S => so3_all). Qed.
Print Assumptions c89_so3_tests.
(** And of SE3, with the translation of up to 10^6; in the tests over pairs the second element
    is the last. *)
Theorem c89_se3_tests : forall {S} (draw : source S) x s count l m d, uniform draw -> se3_algebra_elements draw x s count = Ok l -> se3_group_elements l m ->
  (forall a, In a m -> passes (se3_construction a) /\ passes (se3_interp_zero a) /\ passes (se3_interp_one a) /\ passes (se3_exp_of_log a)) /\
  (forall a, In a l -> passes (se3_inverse_negative a) /\ passes (se3_algebra_agrees a (last l d)) /\ se3_anticommutes a (last l d) = true).
Proof. exact (fun S => se3_all). Qed.
Print Assumptions c89_se3_tests.
(** The tests without elements. *)
Theorem c89_identity_tests : (passes so3_exp_of_zero /\ passes se3_exp_of_zero) /\ passes so3_log_of_identity /\ passes se3_log_of_identity.
Proof. exact (conj exp_of_zero_passes log_of_identity_passes). Qed.
Print Assumptions c89_identity_tests.

(** The test that tells the first element from the others passes when every rotation vector
    drawn has an entry of at least 10^-5. *)
Theorem c89_equality : forall {S} (draw : source S) x y s count, uniform draw ->
  (forall l m, (forall j, reaches (/ 100000) (drawn3 draw s (3 * j))) -> so3_algebra_elements draw x s count = Ok l -> so3_group_elements l m -> exists first rest, m = first :: rest /\ forall a, In a rest -> passes (so3_equality first a)) /\
  (forall l m, (forall j, reaches (/ 100000) (drawn3 draw s (3 + 6 * j))) -> se3_algebra_elements draw y s count = Ok l -> se3_group_elements l m -> exists first rest, m = first :: rest /\ forall a, In a rest -> passes (se3_equality first a)).
Proof. exact (fun S => equality_both). Qed.
Print Assumptions c89_equality.
(** "All the test elements are guaranteed to be unique" does not follow from how they are
    made: with a generator that gives zeros, two are equal and the test fails. *)
Theorem c89_unique_refuted :
  (exists (draw : source unit) l m first a, uniform draw /\ so3_algebra_elements draw fvzero tt 7 = Ok l /\ so3_group_elements l m /\ nth_error l 4 = nth_error l 0 /\ nth_error m 0 = Some first /\ nth_error m 5 = Some a /\ forall c, so3_equality first a c -> c = false) /\
  exists (draw : source unit) l m first a, uniform draw /\ se3_algebra_elements draw ftzero tt 7 = Ok l /\ se3_group_elements l m /\ nth_error l 4 = nth_error l 0 /\ nth_error m 0 = Some first /\ nth_error m 5 = Some a /\ forall c, se3_equality first a c -> c = false.
Proof. exact (conj alike3 alike6). Qed.
Print Assumptions c89_unique_refuted.

(** A generator that gives 1/2 and -3/4 in turn, and ten elements from it. *)
Definition in_turn : source bool := fun b => (if b then fratio 1 2 else fneg (fratio 3 4), negb b).
Lemma in_turn_uniform : uniform in_turn /\ (forall i s, / 4 <= Rabs (val (nth_draw in_turn s i))).
Proof.
  destruct (any_ratio 1 2) as [F E]; [lia|lia|lra|]. destruct (any_ratio 3 4) as [G D]; [lia|lia|lra|]. pose proof h_12. rewrite u_num in E, D. apply Rabs_le_inv in E, D.
  split.
  - intros []; cbn [in_turn fst]; [split; [exact F|lra]|]. rewrite fneg_val. split; [unfold finite; rewrite fneg_finite; exact G|lra].
  - induction i as [|i IH]; intro s; cbn [nth_draw]; [|apply IH]. destruct s; cbn [in_turn fst]; [rewrite Rabs_right; lra|]. rewrite fneg_val, Rabs_Ropp, Rabs_right; lra.
Qed.
Example c89_case : uniform in_turn /\ (forall j, reaches (/ 100000) (drawn3 in_turn true (3 * j))) /\ (forall j, reaches (/ 100000) (drawn3 in_turn true (3 + 6 * j))) /\
  (exists l m, so3_algebra_elements in_turn fvzero true 10 = Ok l /\ so3_group_elements l m /\ length l = 10%nat /\ nth_error l 6 = Some (FV (fratio 1 2) (fneg (fratio 3 4)) (fratio 1 2))) /\
  exists l m, se3_algebra_elements in_turn ftzero true 10 = Ok l /\ se3_group_elements l m /\ length l = 10%nat.
Proof.
  destruct in_turn_uniform as [U R]. split; [exact U|]. split; [intro j; left; cbn [drawn3 fx]; specialize (R (3 * j)%nat true); lra|]. split; [intro j; left; cbn [drawn3 fx]; specialize (R (3 + 6 * j)%nat true); lra|].
  destruct (count_both in_turn fvzero ftzero true 10) as (_ & C & _). destruct C as [(l & L & N) (k & K & N')]; [lia|]. split.
  - destruct (some_so3_group l) as [m M]. exists l, m. split; [exact L|]. split; [exact M|]. split; [lia|]. apply elements3 in L. destruct L as (rest & -> & LL & X). rewrite nth_error_app2 by (cbn; lia). cbn [length Nat.sub]. rewrite (X 1%nat) by (cbn; lia). reflexivity.
  - destruct (some_se3_group k) as [m M]. exists k, m. split; [exact K|]. split; [exact M|]. lia.
Qed.
