# Design of the formal model of re-core

Everything is in Rocq/Coq 8.16.1 under `rocq/theories`. `properties.jsonl` lists
the properties, `MANIFEST.json` maps each to its theorems, `seeded/LOG.jsonl`
records the wrong programs the theorems were tried against.

## Method

* One `…Model.v` file per C++ unit. It holds only definitions, each with a
  comment giving the file and lines in `/repo` that it transcribes and any
  simplification made.
* `…Spec.v` files state what is wanted without using the model's helpers.
* `…Proofs.v` files hold the lemmas.
* `…Props.v` files hold the property theorems. Beside each group there is an
  `Example` showing a non-trivial instance of the hypotheses, and `Print
  Assumptions` for each theorem.
* C++ calls return `outcome A := Ok a | Throw | UB`. `Throw` is a failed
  `REASSERT` or any other exception; `UB` is undefined behaviour (signed
  overflow, out of range conversion, access to an element that is not there, use
  of an object after its lifetime). Models compute `UB` explicitly, and theorems
  either show it unreachable or characterise when it is reached.
* `int64_t` and `int` are `Z` with explicit range checks; `uint64_t` counters are
  `Z`/`N`/`nat` with the explicit bound. Timestamps and Durations are int64
  nanosecond counts (`resim/time/timestamp.hh:14-22`).
* Geometry (`transforms`, `curves`, `actor/state`) and `math` are modelled over
  the real numbers of the standard library, without the rounding of `double`. The
  branch structure (the tiny angle polynomials, Eigen's quaternion branches) is
  kept, with the same thresholds.
* A second model of the parts where rounding matters most is over IEEE binary64
  with Flocq, bit for bit, every operation rounded by itself (no fused
  multiply-add; `.bazelrc` asks for `k8`): the time conversions and the floating
  point sampler, the lookup in curves (C59, C63), the blending polynomials (C60),
  and making, composing and applying rotations and poses (C64 on). Where Eigen's
  order of summation depends on the instruction set, both orders are allowed; the
  sine and cosine of the C library may be off by less than one unit in the last
  place.
* Concurrency (`View`) is a small-step interleaving semantics; each lock, unlock
  and each access in a critical section is a step.
* Servers, file system, clock, random numbers and the eigenvalue solver are
  arbitrary: oracles given by functions of the number of calls made so far, by
  lists of answers, or by a relation; theorems quantify over them.
* A property is `proved` if its statement in `properties.jsonl` is proved as it
  stands. Where a documented or expected claim is false the statement says so and
  a theorem `…_refuted` shows it.

## Plan per property

| id | files | what is modelled | how it is proved |
|----|-------|------------------|------------------|
| C01-C03 | Event | `EventSchedule` on top of libstdc++'s binary array heap (`push_heap`, `pop_heap`), the counter and its bound | invariant (heap order, insertion counts unique and below the counter), refinement to a list kept in stable time order |
| C04-C09 | Time | `safe_integer_utils`, C++ truncating division, Timestamp `num_samples` and `sample_interval` with its loop | loop invariant on whole and numerator, induction on the number of samples; refutation witnesses |
| C10, C11 | Float, FSampleProofs | `as_seconds`, `as_duration` and the double sampler in binary64 | error analysis with Flocq; witnesses by `vm_compute` |
| C12, C13 | Uuid | 16 byte ids, libuuid's parse and unparse | induction over bytes, bit facts |
| C14-C17 | Geom, Frame | frames and frame checks of LieGroup/SO3/SE3/FramedVector | invariant over histories of API calls on a store; case analysis |
| C18, C19, C23, C28 | Geom, Lie | 3x3 real matrices | ring reasoning from orthogonality |
| C20, C21 | Rot | Rodrigues, Eigen's matrix to quaternion to angle-axis | branch by branch, trigonometry |
| C22 | Coeff, Screw, Lie | SE3 exp/log with the three coefficient branches | algebra on V and its inverse; polynomial bound in the tiny branch |
| C24, C27 | Lie | interp, distance helpers | from C20-C22 and the one-parameter subgroup law; refutation for the documented claim |
| C25, C26, C29, C30, C33 | Deriv, Diff, Jet | the derivative functions, derivatives taken with Coquelicot | `is_derive` on matrix entries |
| C31-C35 | Curve, TCurveProofs, SegClose | coefficient tables, Horner evaluation, segments, TCurve append and lookup | polynomial identities, `auto_derive`, invariant over histories; correctness of lower_bound |
| C36-C38 | Curve, DCurve | DCurve | invariant over histories; refutations with explicit curves |
| C39-C41 | State, TrajProofs | RigidBodyState, Trajectory | algebra, invariants over histories; Flocq witnesses for C41 |
| C42-C45 | TransProto, CurveProto | proto messages as records (a proto3 field absent is the default value) | round trips, induction on lists |
| C46, C57 | Status | Status, StatusValue, the macros as monadic code with lifetimes and evaluation order | induction over chains and texts |
| C47, C48 | Stat | matrices as functions over the reals, eigenvalue solver as a relation, random numbers as a stream | sums and algebra |
| C49-C51 | Auth | DeviceCodeClient, file system state, crash points, server oracle | invariants over histories and traces |
| C52, C53 | View | View with threads | invariant over all reachable states of the interleaving semantics; refutation trace |
| C54, C55 | Client | ViewClient with server oracle | invariants over histories |
| C56 | Approx | Eigen's `isApprox` on rotations, vectors and tangent vectors | trace of the relative rotation, bounds on the sine |
| C58 | Stmt | the VIEW macro, ViewObject and the streaming operators, run by one thread | invariant over programs of statements |
| C59 | Nrm | times of TCurve::append and point_at_impl in binary64, std::lower_bound | extended order of doubles, partition invariant of the search, rounding error analysis |
| C60 | Qf | QuinticPolyCoeffs in binary64 | error bound per Horner step, evaluated tables |
| C61, C62 | Sym | the curves of C31-C35 | quintics determined by their end data; every step of a segment commutes with the change |
| C63 | Len | arc lengths of DCurve::append and point_at_impl in binary64 | order of doubles extended to infinity, induction over the appended segments, rounding error analysis |
| C64, C65 | Drift | SO3 and SE3 operator*, inverse and action in binary64 | Frobenius-norm error per operation, induction over expressions; squares modulo 4; evaluation of both summation orders |
| C66 | Spin | SO3 constructors from angle and axis and from a quaternion, SO3::exp in binary64 | rounding error per entry, perturbation of axis and angle, exact sign symmetries of rounding |
| C67 | Twist | SE3::exp and SO3::exp_diff with the coefficients of derivative_of_exp_so3 in binary64 | rounding error per operation on both sides of the threshold, series bounds; the two possible cosines of one angle evaluated |
| C68 | DSym | the distance curves of C36-C38 | logarithm of a screw step, induction over the control points, transfer of acceptance and of queries between two histories |
| C69 | Tlog | SO3::quaternion, log and interp in binary64, with Eigen's conversions from matrix to quaternion to angle and axis | rounding error per branch, quaternions compared up to scale, Lipschitz bounds of exp and of its inverse |
| C70 | Exam | the example programs that make circles and rotations | the steady-motion theorems of C61 and C68 applied to their control points; matrix entries compared |
| C71 | Slog | SE3::log, interp and arc_length in binary64 | rounding error per branch of the coefficient, exact inverse of the screw map and its Lipschitz bounds |
| C72 | Fdc | DCurve<SE3> in binary64, from control points to point_at | structure of the built curve by induction, error of one step from C65, C67 and C71, sum of the lengths from C63, case split on how far the fraction is off |
| C73 | Match | match() with the overload resolution rules it relies on | the computed choice shown to be the best match of a relational statement of the rules; case analysis on parameters and categories |
| C74 | Fts | TCurveSegment<SO3>::point_at in binary64, with two-jets | exact motion by the product rule and its derivative; error of a product of two-jets from the errors of the factors, five times, with all bounds relative to 1 + m |
| C75 | Ftc | TCurve<SO3>: control points, append, lookup, point_at in binary64 | the exact curve glued from the motions of C74; lookup as in C59; scaling by dt and 1/dt keeps relative errors; C74 on each piece |
| C76 | Mock | the mock view server and authentication client with the view client of C54/C55 | client and server composed into one machine; simulation of every answered trace by it; invariant on session, token and numbers; an environment read off the machine's trace |
| C77 | Ref | InOut and NullableReference over a memory of objects with lifetimes | refinement to programs that name the objects, both directions by induction on the program; invariants for confinement |
| C78 | Dev | the mock device code server with the client of C49/C51 | the shape of a fetch from C51; the server's state behind each poll by induction; the cases decided by the first approval and the first clock reading at the deadline |
| C79 | Fps | TCurveSegment<SE3>::point_at in binary64, with two-jets of poses | rotations as in C74; translations in units of (1 + m) b: relative pose, logarithm, screw motions, and the error of a product of two-jets from those of the factors, five times; exact motion by the product rule |
| C80 | Fpc | TCurve<SE3>: control points, append, lookup, point_at in binary64 | as C75, with C79 on each piece and translation parts scaled in units of m r |
| C81 | Ftr | Trajectory: append, construction and point_at in binary64, with the conversions between left and right two-jets | the world as seen from the body moves as in C80; inverse poses as in C72; seconds of int64 distances are multiples of 2^-82, so that legs have lengths C80 allows |
| C82 | Fst | mean() and covariance() in binary64, sums in any order and grouping | Jeannerod and Rump's bound for sums by induction on how they are grouped; centred products by Cauchy-Schwarz; counterexamples by computing every grouping |
| C83 | Fmj | products and inverses of TwoJetR, TwoJetL and RigidBodyState of SE3 in binary64 | exact motions by the product rule for matrices; errors in units as in C79, affine in the errors of the first factor, so that inverse_times chains |
| C84 | Tex | the program examples/time.cc: its checks, what it prints, and the error of left rectangles over the samples of sample_interval | mean value theorem twice for each rectangle, telescoping, error of the sum of doubles, Coquelicot's integral as the specification |
| C85 | Fap | Eigen's `isApprox` in binary64 on rotations, vectors and poses, and the round trips of `liegroup_test.cc` | error of sums of squares in any order; the bounds of C64-C71 against the threshold; sums of lengths and NaNs without bounds |
| C86 | Bank | examples 00, 01 and 04: robot, sensor and drone | computed poses and states put into the trajectory theorems of C40; axis of rotation from the velocity field |
| C87 | Adj | adjoint matrices, Lie brackets and distances in binary64, and the adjoint checks of `liegroup_test.cc` | exact antisymmetry of rounding; errors of sums of six products against the thresholds |
| C88 | Gsn | `Gaussian` in binary64: its checks, what it holds and its samples | error of sums of squares for any number of entries; lists of coefficients against double sums; errors of the products of a sample |
| C89 | Tv | `liegroup_test_helpers.cc` with `random_matrix.hh`, and the tests of `liegroup_test.cc` over its elements, in binary64 | list of draws by induction over the loop; bounds of the elements against the thresholds of the tests; inverse of a screw; sums below 2^21 |
| C90 | Cth | test helpers of jets, time curves, distance curves, payloads and view primitives | loops with int counters by induction; generator state after n vectors; screw curves of C68 for the circle |
| C91 | Td | `TestDirectoryRAII` over a file system, with programs of nested blocks and exceptions | invariant that the tree agrees with the one before outside the directories held; induction over programs |
| C92 | Td | `MoveCopyTracker` | histories as an inductive relation; induction over programs from their end |
| C93 | Ms | `testing::MockServer` with the parts of cpp-httplib it calls | all ways a sequence of uses can go, by the first event that is not a request; insertion into an ordered multimap; uniqueness of the copy and of the reply |
| C94 | Rd | `random_duration` with libstdc++'s distribution over a 32-bit generator; the four tests of `timestamp_test.cc` | the two words are the digits of the duration, so drawing is a bijection; the expectation on seconds is proved binade by binade: a quotient by 10^9 and back moves a double by less than one unit below 2^23*10^9 times a power of two and by at most one above it, where the tolerance is large enough |

## Not modelled

* Rounding of `double` in the geometry code and in `math` outside the parts named
  above; NaN and infinity there except where a theorem says so.
* Eigen, libuuid, protobuf, cpr, fmt and the C++ library are represented by the
  documented behaviour of the functions called, cited at each definition.
* Hash values other than through equality of the text that is hashed; random UUID
  generation is an oracle of fresh ids.
* Memory allocation failure, and signals other than a kill at the crash points of
  C50.
* Logging output, JSON parsing (an answer is given as parsed or unparsable) and
  the HTTP transport.
* How the threads of the mock servers interleave, tests other than those a
  property names, build files, docs.
* Symbolic links, access rights and failures of the disk in C91.

## Trusted base

* Coq's kernel (and `vm_compute`, which is part of it).
* The axioms of the standard library listed by `Print Assumptions`, per theorem
  in the table below. Coquelicot, Flocq and ssreflect are used; they add no
  axioms to the theorems.
* The faithfulness of the hand transcription, for which every definition cites
  its source lines.

The four axioms that occur, all of Coq's standard library:

* `S`: `ClassicalDedekindReals.sig_forall_dec` and `N`:
  `ClassicalDedekindReals.sig_not_dec`, from which the real numbers are built
* `F`: `FunctionalExtensionality.functional_extensionality_dep`, used there too
* `C`: `Classical_Prop.classic`, used by Coquelicot, Flocq and parts of Reals

| axioms | theorems |
|--------|----------|
| none | c01_refines_stable_queue c01_time_order_fifo c02_conservation c03_lifetime_bound c04_safe_abs c04_safe_difference c04_safe_sum c05_from_then_to c05_seconds_nanos_round_trip c05_split_unique c06_num_samples_equal_ends c06_num_samples_minimum c06_num_samples_minimum_refuted c07_equal_ends_sampled_once c07_sampling_covers_evenly c08_forward_samples_nearest c08_reversed_truncated c08_samples_nearest_refuted c09_no_overflow_below_2_62 c09_no_overflow_refuted c09_rejected_inputs c09_sampling_outcome c12_accepted_grammar c12_no_nul_whole_text c12_text_canonical c12_text_round_trip c13_equality_agrees c14_set_frames c17_is_approx_const c30_setters c32_segment_frames c39_getters_determine c39_setters c42_injective c42_layout c42_round_trip c42_round_trip_back c42_shape_checked_refuted c42_throws_exactly c43_frame_accepts c43_frame_round_trip c43_missing_id_rejected c46_chain_first_error c46_chain_inversion c46_chain_success c46_direct_steps_refuted c46_guard_refuted c46_no_okay_without_value c46_status_value_never_lies c49_cached c49_nonempty_refuted c49_refresh_contacts_server c49_returned_token c50_complete_or_contact_refuted c50_crash_point c50_returned_token_is_prefix c51_poll_count c51_polling c51_polling_ends c52_all_delivered c52_done_implies_sent c52_no_deadlock c52_program_order c52_sent_exactly_once c52_terminates c53_carried_by_first_send c53_return_implies_accepted_refuted c53_single_thread_knows c54_ids_increase c54_numbering c54_url_text c54_urls_distinct c55_at_most_one_session_refuted c55_bearer_fresh c55_effort c55_failure_says_which c55_okay_iff_accepted c55_one_session c55_refresh c55_upload_uses_session c57_check_call_refuted c57_check_evaluates_twice c57_check_variable c57_return_evaluates_once c57_text_identifies c57_text_identifies_refuted c57_text_okay c57_text_same_file c58_failures c58_one_new_id_per_update c58_shown_once_refuted c58_statements_show c73_calls_best c73_change_refuted c73_check_refuted c73_default c73_mutable_refuted c73_order c73_own_branches c73_own_first c73_plain c73_unhandled_refuted c76_exists c76_once_refuted c76_received c76_refused c76_status c77_as_if c77_confined c77_fixed c77_has_value_safe_refuted c77_impossible_refuted c78_early_approval_refuted c78_exists c78_get_jwt c78_new c90_frames c90_jet c90_minimum_refuted c90_vectors c91_ends c91_file c91_in_directory_refuted c91_keeps c91_make c91_nothing_left c91_relative_refuted c92_counts c92_original_refuted c93_invalid_refuted c93_life c93_never_throws c93_post c93_served c93_wrong c94_split_tests c94_two_words c94_uniform |
| C | c92_overflow |
| S | c15_inverse_swaps_frames c15_se3_composition c15_so3_composition c17_addition c17_is_approx_considers_frames_refuted c17_rotation c34_history_determines c43_framed_vector_accepts c43_framed_vector_round_trip |
| SC | c17_relabel |
| SF | c15_se3_associative c15_so3_associative c16_se3_chain c16_so3_chain c17_equality c17_scaling c18_identity_neutral c18_inverse c18_product_acts_in_turn c19_group_action c19_identity_neutral c19_inverse c23_bracket_is_commutator c23_bracket_laws c23_bracket_preserved c23_matrices c23_products c25_left_velocity_unique c28_cross_matrix c31_boundary_values c31_true_derivatives c31_unique_quintics c47_correlation c47_covariance c47_covariance_affine c47_covariance_order c47_divisor_refuted c47_many_refuted c47_mean_affine c47_mean_centre c47_mean_defined c47_mean_order c47_semi_definite c47_symmetric c48_one_by_one_refuted c56_reflexive_symmetric c56_rotations_invariant c60_exact_polynomials c83_riding c83_upon |
| SFC | c34_append c34_append_list c34_construction |
| SNF | c14_half_framed_construction_throws c18_angle_axis c18_exp_turns c18_preserves_geometry c18_quaternion_round_trip c19_isometry c23_se3_adjoint c23_so3_adjoint c27_distance c27_distance_is_relative_translation_refuted c27_inverse_distance c27_symmetric c43_se3_accepts c43_so3_accepts c48_accepts c48_convergence_refuted c48_numerical_issue c48_sample_statistics c48_samples c56_bounded_distance_refuted c56_jets c56_left_jet_zero_only_to_zero c56_pose_invariance_refuted c56_poses c56_right_jet_zero_only_to_zero c56_some_tolerance_refuted c56_zero_only_to_zero c66_quaternion_turns c66_turning c70_angles_refuted c70_one_angle c70_two_angles c86_composition c86_rigid c86_turn |
| SNFC | c10_bad_step c10_defined_refuted c10_equal c10_finite_refuted c10_order_refuted c10_samples c10_spacing c10_spacing_refuted c11_again c11_again_refuted c11_bound_sharp c11_exact_refuted c11_longest c11_nearest c11_nearest_sharp c11_order c11_order_back c11_round_trip c11_seconds c11_within_one c11_within_rounding c14_calls_leave_other_objects_alone c14_never_half_framed c15_mixed_associativity_refuted c18_closed_under_histories c20_exp_log c21_log_exp c21_log_shortest c22_exact_everywhere_refuted c22_exp_log c22_log_exp c24_from_frame_replaced c24_se3_ends c24_se3_subgroup c24_so3_ends c24_so3_fraction_of_angle c24_so3_subgroup c25_exp_diff c26_arc_length c26_screw_solves c29_frames_checked c29_jet_unique c29_left_product_rule c29_right_product_rule c30_conversion_reverses c30_conversions c30_default c30_inverse_curve c30_left_group c30_right_group c32_end c32_end_se3 c32_end_so3 c32_start c32_total c33_curve c33_se3_curve_follows_c2 c33_segment c33_so3_curve_c2 c34_history c35_accessors c35_control_points c35_control_points_se3 c35_first_control_point c35_segment_of_time c35_throws c36_append c36_append_list c36_construction c36_frames_agree_refuted c36_history c36_history_determines c37_geodesic c37_meets_all_refuted c37_meets_control_points c37_meets_first c37_not_a_number c37_start_usable_refuted c37_throws c38_arc_length_path c38_c1_refuted c38_orientation c38_orientation_continuous_refuted c39_constructors c39_frames_checked c39_identity c39_inverse_times c39_motions c40_append c40_append_list c40_construction c40_control_points c40_control_points_close c40_curve_start_refuted c40_empty c40_first_control_point c40_from_start c40_history c40_history_determines c40_inside c40_new c40_point_at c41_accepted c41_accepted_refuted c41_end_refuted c41_end_round_trip c41_end_time c43_se3_round_trip c43_so3_round_trip c44_destination c44_distance_curve c44_distance_curve_accepts c44_exact_refuted c44_jets_accept c44_representable c44_se3_curve c44_se3_curve_accepts c44_se3_jets c44_so3_curve c44_so3_curve_accepts c44_so3_jets c44_target c44_timestamp_valid c44_timestamp_valid_refuted c44_trajectory c44_trajectory_accepts c45_destination c45_names_kept_refuted c45_payload_accepts c45_primitive c45_primitive_accepts c45_update c45_update_accepts c48_holds c48_reproduces c56_angle_threshold c56_rotations_by_angle c56_transitive_refuted c59_durations c59_end_is_one_refuted c59_long_number_refuted c59_lookup c59_monotone c59_nan c59_normalized c59_number_refuted c59_range_checked_refuted c59_times_increase c60_accuracy c60_exact_at_ends c60_nan c60_segment_ends c60_weight_at_most_one_refuted c61_far_refuted c61_se3 c61_se3_straight c61_so3 c61_uniform_so3 c61_uniform_straight c62_backwards_refuted c62_clock c62_half_turn_refuted c62_point_se3 c62_point_so3 c62_reference c63_arcs c63_end_reached_refuted c63_endless c63_fraction c63_fraction_range_refuted c63_length c63_lookup c63_monotone c63_nan c63_passed_over c63_sum c64_associative_refuted c64_bounded_drift_refuted c64_error c64_exact_entries c64_inverse_refuted c64_quarter_turns c64_right_angles c64_vectors c65_error c65_inverse_refuted c65_points c66_angle_axis c66_any_quaternion_refuted c66_composed c66_exp c66_exp_finite_refuted c66_exp_zero c66_opposite c66_quaternion c67_composed c67_exp c67_exp_diff c67_full_precision_refuted c67_no_turn c68_mounted c68_reference c68_steady c68_steady_segment c69_exp_log c69_half_turn_refuted c69_identity c69_interp c69_interp_ends c69_interp_follows c69_log c69_log_exp c69_quaternion c69_recovers c70_bend c70_circle c70_framed_circle c70_midpoint c70_raised c70_sensor c70_shifted c70_shifted_refuted c70_time_circle c71_arc_length c71_arc_length_follows c71_exp_log c71_interp c71_interp_ends c71_interp_follows c71_log c71_log_exp c71_no_turn c71_recovers c72_defined c72_length c72_point_at c72_refused c72_start_refuted c74_between c74_ends c74_point_at c75_controls c75_exact c75_in_range_refuted c75_made c75_nan c75_point_at c75_refused c79_between c79_ends c79_point_at c80_controls c80_exact c80_in_range_refuted c80_made c80_nan c80_point_at c80_refused c81_controls c81_exact c81_from_start c81_made c81_point_at c81_refused c81_times c82_accepted c82_covariance c82_equal_refuted c82_mean c82_mean_defined c82_own_samples_refuted c82_semi_definite c82_sum c83_inverse c83_inverse_times c83_left c83_product c84_integral c84_program c84_rectangles c85_compositions c85_direction_refuted c85_exponentials c85_extremes c85_inverse_refuted c85_pose_compositions c85_pose_round_trips c85_rotations c85_round_trips c85_self c85_symmetric c85_transitive_refuted c85_vectors c85_zero c86_bend c86_flight c86_radius_refuted c86_return_refuted c87_by_adjoint c87_distance c87_distance_extremes c87_distance_refuted c87_group c87_group_near c87_matrix c87_matrix_pose c87_noop c87_opposite c87_opposite_test c87_self c87_self_refuted c88_accepts c88_accepts_infinite c88_holds c88_rejects_asymmetric c88_rejects_nan c88_rejects_solution c88_reproduces c88_samples c88_semi_definite_refuted c88_sizes c88_symmetric_refuted c89_constants c89_count c89_equality c89_group_elements c89_identity_tests c89_lengths c89_se3_elements c89_se3_tests c89_so3_elements c89_so3_tests c89_unique_refuted c90_alike c90_circle c90_d_curves c90_jets c90_nan_time c90_poses c90_primitive c90_t_curve c90_t_curves c90_test_curve c90_trajectories c94_any_seed_refuted c94_expectation c94_seconds_tests |
