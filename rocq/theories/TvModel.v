(** Model of the test elements of the Lie groups, resim/transforms/liegroup_test_helpers.cc with
    resim/testing/random_matrix.hh, and of the tests that go over them, liegroup_test.cc, in
    double precision. *)
From Coq Require Import ZArith List.
From Flocq Require Import Core BinarySingleNaN.
From Verif Require Import Cpp FloatModel DriftModel SpinModel TwistModel TlogModel SlogModel FtsModel FpsModel FstModel FapModel AdjModel.
Import ListNotations.

(** A generator with its distribution: what is drawn, and the state after it
    (random_matrix.hh:23-34, 42-50).  Simplification: std::mt19937 and
    std::uniform_real_distribution are any function of a state. *)
Definition source (S : Type) := S -> f64 * S.
(** random_vector of three entries, drawn from the first to the last (random_matrix.hh:23-34,
    42-50, 57-60). *)
Definition random3 {S} (draw : source S) (s : S) : fvec * S :=
  let '(x, s) := draw s in let '(y, s) := draw s in let '(z, s) := draw s in (FV x y z, s).
(** The same of six entries (random_matrix.hh:23-34, 42-50, 57-60). *)
Definition random6 {S} (draw : source S) (s : S) : ftan * S :=
  let '(v, s) := random3 draw s in let '(w, s) := random3 draw s in (FT v w, s).

(** LARGE and TINY: liegroup_test_helpers.cc:47, 72. *)
Definition test_large : f64 := of_int 1000000.
Definition test_tiny : f64 := fratio 1 1000000.
(** LRG_ROT: liegroup_test_helpers.cc:37-39; M_PI is the double nearest to the number. *)
Definition fm_pi : f64 := fratio 884279719003555 (2 ^ 48).
Definition test_large_rotation : f64 := fdivide (fsub fm_pi (fratio 1 100)) (fratio 1732 1000).
(** make_large_vector of SO3: liegroup_test_helpers.cc:32-41. *)
Definition large3 {S} (s : S) : fvec * S := (FV test_large_rotation test_large_rotation (fneg test_large_rotation), s).
(** make_large_vector of SE3: liegroup_test_helpers.cc:43-51. *)
Definition large6 {S} (draw : source S) (s : S) : ftan * S :=
  let '(rotation, s) := large3 s in
  let '(v, s) := random3 draw s in
  (FT rotation (fscale test_large v), s).

(** Vectors of one kind: Zero(), Ones(), the sign and the scalar product
    (liegroup_test_helpers.cc:64-73), and the two functions above. *)
Record kind (S V : Type) := Kind {
  k_zero : V; k_ones : V; k_neg : V -> V; k_scale : f64 -> V -> V; k_large : S -> V * S; k_random : S -> V * S
}.
Arguments k_zero {S V}. Arguments k_ones {S V}. Arguments k_neg {S V}. Arguments k_scale {S V}. Arguments k_large {S V}. Arguments k_random {S V}.
(** Eigen::Vector3d, which is SO3::TangentVector (liegroup_test_helpers.cc:104-107). *)
Definition fvones : fvec := FV (of_int 1) (of_int 1) (of_int 1).
Definition kind3 {S} (draw : source S) : kind S fvec :=
  Kind S fvec fvzero fvones fvneg fscale large3 (random3 draw).
(** SE3::TangentVector (liegroup_test_helpers.cc:109-110). *)
Definition ftneg (a : ftan) : ftan := FT (fvneg (frot_part a)) (fvneg (ftrans_part a)).
Definition kind6 {S} (draw : source S) : kind S ftan :=
  Kind S ftan ftzero (FT fvones fvones) ftneg ftscale (large6 draw) (random6 draw).

(** MIN_TEST_ELEMENTS: liegroup_test_helpers.hh:14. *)
Definition min_test_elements : Z := 7.
(** The loop that adds random elements (liegroup_test_helpers.cc:75-77): [n] more times,
    with [i] an int. *)
Fixpoint fill {S V} (k : kind S V) (n : nat) (i : Z) (s : S) (elements : list V) : outcome (list V) :=
  match n with
  | O => Ok elements
  | Datatypes.S n =>
      let '(v, s) := k_random k s in
      if (i =? INT_MAX)%Z then UB else fill k n (i + 1) s (elements ++ [v])
  end.
(** std::vector::resize (liegroup_test_helpers.cc:78); [fresh] is what a new element holds. *)
Definition resize {V} (n : nat) (fresh : V) (l : list V) : list V := firstn n l ++ repeat fresh (n - length l).
(** make_test_vectors: liegroup_test_helpers.cc:55-80.  [seeded] is the state after seeding.
    Simplification: memory does not run out. *)
Definition make_test_vectors {S V} (k : kind S V) (fresh : V) (seeded : S) (count : Z) : outcome (list V) :=
  if (count <? min_test_elements)%Z then Throw
  else
    let '(large, s) := k_large k seeded in
    let '(v, s) := k_random k s in
    let elements := [k_zero k; k_ones k; k_neg k (k_ones k); large; k_scale k test_tiny v] in
    let* elements := fill k (Z.to_nat count - length elements) (Z.of_nat (length elements)) s elements in
    Ok (resize (Z.to_nat count) fresh elements).
(** make_test_algebra_elements of SO3 and SE3: liegroup_test_helpers.cc:82-86. *)
Definition so3_algebra_elements {S} (draw : source S) := make_test_vectors (kind3 draw).
Definition se3_algebra_elements {S} (draw : source S) := make_test_vectors (kind6 draw).
(** make_test_group_elements of SO3 and SE3, from the result of the above:
    liegroup_test_helpers.cc:88-102. *)
Definition so3_group_elements (l : list fvec) (m : list fmat) : Prop := Forall2 fso3_exp l m.
Definition se3_group_elements (l : list ftan) (m : list fpose) : Prop :=
  Forall2 (fun a => fse3_exp (frot_part a) (ftrans_part a)) l m.

(** Construction of SO3, of a and its copy b, and of a and c: liegroup_test.cc:36-43. *)
Definition so3_construction (a : fmat) (result : bool) : Prop := fso3_is_approx a a result.
Definition se3_construction (a : fpose) (result : bool) : Prop := fse3_is_approx a a result.
(** InverseNegativeAlgEquivalence: liegroup_test.cc:45-52. *)
Definition so3_inverse_negative (alg : fvec) (result : bool) : Prop :=
  exists e b_from_a, fso3_exp alg e /\ fso3_exp (fvneg alg) b_from_a /\ fso3_is_approx (fmtrans e) b_from_a result.
Definition se3_inverse_negative (alg : ftan) (result : bool) : Prop :=
  exists e b_from_a_ref b_from_a, fse3_exp (frot_part alg) (ftrans_part alg) e /\ fpose_inverse e b_from_a_ref /\
    fse3_exp (frot_part (ftneg alg)) (ftrans_part (ftneg alg)) b_from_a /\ fse3_is_approx b_from_a_ref b_from_a result.
(** InterpZeroIdentity: liegroup_test.cc:54-60. *)
Definition so3_interp_zero (a_from_b : fmat) (result : bool) : Prop :=
  exists p, fso3_interp a_from_b (of_int 0) p /\ fso3_is_approx p fmid result.
Definition se3_interp_zero (a_from_b : fpose) (result : bool) : Prop :=
  exists p, fse3_interp a_from_b (of_int 0) p /\ fse3_is_approx p fpose_identity result.
(** InterpOneNoop: liegroup_test.cc:62-68. *)
Definition so3_interp_one (a_from_b : fmat) (result : bool) : Prop :=
  exists p, fso3_interp a_from_b (of_int 1) p /\ fso3_is_approx p a_from_b result.
Definition se3_interp_one (a_from_b : fpose) (result : bool) : Prop :=
  exists p, fse3_interp a_from_b (of_int 1) p /\ fse3_is_approx p a_from_b result.
(** ExpOfZero: liegroup_test.cc:70-74. *)
Definition so3_exp_of_zero (result : bool) : Prop := exists a_from_a, fso3_exp fvzero a_from_a /\ fso3_is_approx fmid a_from_a result.
Definition se3_exp_of_zero (result : bool) : Prop := exists a_from_a, fse3_exp fvzero fvzero a_from_a /\ fse3_is_approx fpose_identity a_from_a result.
(** LogOfIdentity: liegroup_test.cc:76-80. *)
Definition so3_log_of_identity (result : bool) : Prop := exists v, fso3_log fmid v /\ fvec_is_approx v fvzero result.
Definition se3_log_of_identity (result : bool) : Prop :=
  exists w v, fse3_log fpose_identity w v /\ fis_approx (ftcoords (FT w v)) (ftcoords ftzero) result.
(** ExpOfLogNoop: liegroup_test.cc:82-89. *)
Definition so3_exp_of_log (a_from_b : fmat) (result : bool) : Prop :=
  exists v p, fso3_log a_from_b v /\ fso3_exp v p /\ fso3_is_approx p a_from_b result.
Definition se3_exp_of_log (a_from_b : fpose) (result : bool) : Prop :=
  exists w v p, fse3_log a_from_b w v /\ fse3_exp w v p /\ fse3_is_approx p a_from_b result.
(** AdjointAndTimesGroup of SO3, where both sides multiply by the rotation matrix:
    liegroup_test.cc:112-121, so3.cc:115-127. *)
Definition so3_group_agrees (grp : fmat) (alg : fvec) (result : bool) : Prop :=
  exists adj_times adj_times_alt, fmvec grp alg adj_times /\ fmvec grp alg adj_times_alt /\ fvec_is_approx adj_times adj_times_alt result.
(** FloatingPointEquality, of the first element and a later one: liegroup_test.cc:150-164. *)
Definition so3_equality (a_from_a a_from_b : fmat) (result : bool) : Prop :=
  exists same other, fso3_is_approx a_from_b a_from_b same /\ fso3_is_approx a_from_a a_from_b other /\ result = (same && negb other)%bool.
Definition se3_equality (a_from_a a_from_b : fpose) (result : bool) : Prop :=
  exists same other, fse3_is_approx a_from_b a_from_b same /\ fse3_is_approx a_from_a a_from_b other /\ result = (same && negb other)%bool.
