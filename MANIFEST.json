{
 "claims": [
  {
   "property": "C01",
   "status": "proved",
   "theorems": [
    "c01_time_order_fifo",
    "c01_refines_stable_queue"
   ],
   "note": ""
  },
  {
   "property": "C02",
   "status": "proved",
   "theorems": [
    "c02_conservation"
   ],
   "note": ""
  },
  {
   "property": "C03",
   "status": "proved",
   "theorems": [
    "c03_lifetime_bound"
   ],
   "note": ""
  },
  {
   "property": "C04",
   "status": "proved",
   "theorems": [
    "c04_safe_sum",
    "c04_safe_difference",
    "c04_safe_abs"
   ],
   "note": ""
  },
  {
   "property": "C05",
   "status": "proved",
   "theorems": [
    "c05_seconds_nanos_round_trip",
    "c05_split_unique",
    "c05_from_then_to"
   ],
   "note": ""
  },
  {
   "property": "C06",
   "status": "proved",
   "theorems": [
    "c06_num_samples_minimum",
    "c06_num_samples_equal_ends",
    "c06_num_samples_minimum_refuted"
   ],
   "note": "The header's unrestricted claim of minimality is refuted for equal ends."
  },
  {
   "property": "C07",
   "status": "proved",
   "theorems": [
    "c07_sampling_covers_evenly",
    "c07_equal_ends_sampled_once"
   ],
   "note": ""
  },
  {
   "property": "C08",
   "status": "proved",
   "theorems": [
    "c08_forward_samples_nearest",
    "c08_reversed_truncated",
    "c08_samples_nearest_refuted"
   ],
   "note": "The header's unrestricted claim is refuted for reversed intervals."
  },
  {
   "property": "C09",
   "status": "proved",
   "theorems": [
    "c09_sampling_outcome",
    "c09_rejected_inputs",
    "c09_no_overflow_below_2_62",
    "c09_no_overflow_refuted"
   ],
   "note": "Signed overflow in the last loop pass is exhibited for extreme spans."
  },
  {
   "property": "C12",
   "status": "proved",
   "theorems": [
    "c12_text_round_trip",
    "c12_text_canonical",
    "c12_accepted_grammar",
    "c12_no_nul_whole_text"
   ],
   "note": ""
  },
  {
   "property": "C13",
   "status": "proved",
   "theorems": [
    "c13_equality_agrees"
   ],
   "note": ""
  },
  {
   "property": "C46",
   "status": "proved",
   "theorems": [
    "c46_status_value_never_lies",
    "c46_no_okay_without_value",
    "c46_chain_success",
    "c46_chain_first_error",
    "c46_chain_inversion",
    "c46_direct_steps_refuted",
    "c46_guard_refuted"
   ],
   "note": "Lifetimes of temporaries are modelled for the macro argument."
  },
  {
   "property": "C57",
   "status": "proved",
   "theorems": [
    "c57_text_okay",
    "c57_text_identifies",
    "c57_text_same_file",
    "c57_text_identifies_refuted",
    "c57_check_variable",
    "c57_check_evaluates_twice",
    "c57_check_call_refuted",
    "c57_return_evaluates_once"
   ],
   "note": ""
  },
  {
   "property": "C49",
   "status": "proved",
   "theorems": [
    "c49_returned_token",
    "c49_cached",
    "c49_refresh_contacts_server",
    "c49_nonempty_refuted"
   ],
   "note": "'Never empty' is refuted for an initially empty token file."
  },
  {
   "property": "C50",
   "status": "proved",
   "theorems": [
    "c50_returned_token_is_prefix",
    "c50_crash_point",
    "c50_complete_or_contact_refuted"
   ],
   "note": "Full crash safety is refuted; what does hold at every crash point is proved."
  },
  {
   "property": "C51",
   "status": "proved",
   "theorems": [
    "c51_polling",
    "c51_poll_count",
    "c51_polling_ends"
   ],
   "note": ""
  },
  {
   "property": "C52",
   "status": "proved",
   "theorems": [
    "c52_sent_exactly_once",
    "c52_program_order",
    "c52_done_implies_sent",
    "c52_all_delivered",
    "c52_no_deadlock",
    "c52_terminates"
   ],
   "note": ""
  },
  {
   "property": "C53",
   "status": "proved",
   "theorems": [
    "c53_carried_by_first_send",
    "c53_single_thread_knows",
    "c53_return_implies_accepted_refuted",
    "c52_sent_exactly_once",
    "c52_no_deadlock"
   ],
   "note": "'view_object returned, so the object was accepted' is refuted for two threads."
  },
  {
   "property": "C54",
   "status": "proved",
   "theorems": [
    "c54_numbering",
    "c54_ids_increase",
    "c54_urls_distinct",
    "c54_url_text"
   ],
   "note": "Histories shorter than 2^64 calls (uint64_t counter)."
  },
  {
   "property": "C55",
   "status": "proved",
   "theorems": [
    "c55_upload_uses_session",
    "c55_one_session",
    "c55_effort",
    "c55_okay_iff_accepted",
    "c55_failure_says_which",
    "c55_bearer_fresh",
    "c55_refresh",
    "c55_at_most_one_session_refuted"
   ],
   "note": ""
  },
  {
   "property": "C14",
   "status": "proved",
   "theorems": [
    "c14_never_half_framed",
    "c14_half_framed_construction_throws",
    "c14_set_frames",
    "c14_calls_leave_other_objects_alone"
   ],
   "note": ""
  },
  {
   "property": "C15",
   "status": "proved",
   "theorems": [
    "c15_so3_composition",
    "c15_se3_composition",
    "c15_inverse_swaps_frames",
    "c15_so3_associative",
    "c15_se3_associative",
    "c15_mixed_associativity_refuted"
   ],
   "note": ""
  },
  {
   "property": "C16",
   "status": "proved",
   "theorems": [
    "c16_se3_chain",
    "c16_so3_chain"
   ],
   "note": ""
  },
  {
   "property": "C17",
   "status": "proved",
   "theorems": [
    "c17_addition",
    "c17_rotation",
    "c17_equality",
    "c17_relabel",
    "c17_scaling",
    "c17_is_approx_const",
    "c17_is_approx_considers_frames_refuted"
   ],
   "note": "The comment at framed_vector.hh:87 (isApprox considers frames) is refuted for non-const arguments."
  },
  {
   "property": "C18",
   "status": "proved",
   "theorems": [
    "c18_identity_neutral",
    "c18_inverse",
    "c18_product_acts_in_turn",
    "c18_closed_under_histories",
    "c18_preserves_geometry",
    "c18_angle_axis",
    "c18_exp_turns",
    "c18_quaternion_round_trip",
    "c15_so3_associative"
   ],
   "note": "Over the reals."
  },
  {
   "property": "C19",
   "status": "proved",
   "theorems": [
    "c19_identity_neutral",
    "c19_inverse",
    "c19_group_action",
    "c19_isometry",
    "c15_se3_associative"
   ],
   "note": "Over the reals."
  },
  {
   "property": "C20",
   "status": "proved",
   "theorems": [
    "c20_exp_log"
   ],
   "note": "Over the reals."
  },
  {
   "property": "C21",
   "status": "proved",
   "theorems": [
    "c21_log_exp",
    "c21_log_shortest"
   ],
   "note": "Over the reals."
  },
  {
   "property": "C22",
   "status": "proved",
   "theorems": [
    "c22_exp_log",
    "c22_log_exp",
    "c22_exact_everywhere_refuted"
   ],
   "note": "Over the reals; exactness everywhere is refuted (the coefficient formula of the tiny branch at se3.cc:146 has '+' for '*')."
  },
  {
   "property": "C23",
   "status": "proved",
   "theorems": [
    "c23_so3_adjoint",
    "c23_se3_adjoint",
    "c23_matrices",
    "c23_products",
    "c23_bracket_is_commutator",
    "c23_bracket_laws",
    "c23_bracket_preserved"
   ],
   "note": "Over the reals."
  },
  {
   "property": "C24",
   "status": "proved",
   "theorems": [
    "c24_so3_ends",
    "c24_so3_subgroup",
    "c24_so3_fraction_of_angle",
    "c24_se3_ends",
    "c24_se3_subgroup",
    "c24_from_frame_replaced"
   ],
   "note": "Over the reals."
  },
  {
   "property": "C25",
   "status": "proved",
   "theorems": [
    "c25_exp_diff",
    "c25_left_velocity_unique"
   ],
   "note": "Over the reals."
  },
  {
   "property": "C26",
   "status": "proved",
   "theorems": [
    "c26_screw_solves",
    "c26_arc_length"
   ],
   "note": "Over the reals."
  },
  {
   "property": "C27",
   "status": "proved",
   "theorems": [
    "c27_inverse_distance",
    "c27_distance",
    "c27_distance_is_relative_translation_refuted",
    "c27_symmetric"
   ],
   "note": "The documented value of se3_distance (se3.hh:180-184) is refuted."
  },
  {
   "property": "C28",
   "status": "proved",
   "theorems": [
    "c28_cross_matrix"
   ],
   "note": "Over the reals."
  },
  {
   "property": "C42",
   "status": "proved",
   "theorems": [
    "c42_layout",
    "c42_round_trip",
    "c42_round_trip_back",
    "c42_throws_exactly",
    "c42_injective",
    "c42_shape_checked_refuted"
   ],
   "note": ""
  },
  {
   "property": "C43",
   "status": "proved",
   "theorems": [
    "c43_frame_round_trip",
    "c43_framed_vector_round_trip",
    "c43_so3_round_trip",
    "c43_se3_round_trip",
    "c43_frame_accepts",
    "c43_framed_vector_accepts",
    "c43_so3_accepts",
    "c43_se3_accepts",
    "c43_missing_id_rejected",
    "c12_text_round_trip"
   ],
   "note": "Over the reals."
  },
  {
   "property": "C29",
   "status": "proved",
   "theorems": [
    "c29_left_product_rule",
    "c29_right_product_rule",
    "c29_jet_unique",
    "c29_frames_checked"
   ],
   "note": "Over the reals."
  },
  {
   "property": "C30",
   "status": "proved",
   "theorems": [
    "c30_inverse_curve",
    "c30_conversions",
    "c30_left_group",
    "c30_right_group",
    "c30_default",
    "c30_conversion_reverses",
    "c30_setters"
   ],
   "note": "Over the reals."
  },
  {
   "property": "C31",
   "status": "proved",
   "theorems": [
    "c31_true_derivatives",
    "c31_boundary_values",
    "c31_unique_quintics"
   ],
   "note": "Over the reals."
  },
  {
   "property": "C32",
   "status": "proved",
   "theorems": [
    "c32_segment_frames",
    "c32_total",
    "c32_start",
    "c32_end",
    "c32_end_so3",
    "c32_end_se3"
   ],
   "note": "Over the reals."
  },
  {
   "property": "C33",
   "status": "proved",
   "theorems": [
    "c33_segment",
    "c33_curve",
    "c33_so3_curve_c2",
    "c33_se3_curve_follows_c2"
   ],
   "note": "Over the reals."
  },
  {
   "property": "C34",
   "status": "proved",
   "theorems": [
    "c34_append",
    "c34_history",
    "c34_history_determines",
    "c34_append_list",
    "c34_construction"
   ],
   "note": "Times are reals."
  },
  {
   "property": "C35",
   "status": "proved",
   "theorems": [
    "c35_throws",
    "c35_segment_of_time",
    "c35_control_points",
    "c35_first_control_point",
    "c35_control_points_se3",
    "c35_accessors"
   ],
   "note": "Over the reals."
  },
  {
   "property": "C36",
   "status": "proved",
   "theorems": [
    "c36_append",
    "c36_history",
    "c36_history_determines",
    "c36_append_list",
    "c36_construction",
    "c36_frames_agree_refuted"
   ],
   "note": "Over the reals."
  },
  {
   "property": "C37",
   "status": "proved",
   "theorems": [
    "c37_throws",
    "c37_not_a_number",
    "c37_start_usable_refuted",
    "c37_geodesic",
    "c37_meets_control_points",
    "c37_meets_first",
    "c37_meets_all_refuted"
   ],
   "note": "Over the reals; 'defined for every arc length' and 'passes every control point' are refuted."
  },
  {
   "property": "C38",
   "status": "proved",
   "theorems": [
    "c38_arc_length_path",
    "c38_orientation",
    "c38_c1_refuted",
    "c38_orientation_continuous_refuted"
   ],
   "note": "Over the reals; the C1 claim at d_curve.hh:16-21 is refuted."
  },
  {
   "property": "C10",
   "status": "proved",
   "theorems": [
    "c10_equal",
    "c10_bad_step",
    "c10_samples",
    "c10_spacing",
    "c10_finite_refuted",
    "c10_defined_refuted",
    "c10_order_refuted",
    "c10_spacing_refuted"
   ],
   "note": "IEEE binary64, round to nearest even, no contraction to fused operations."
  },
  {
   "property": "C11",
   "status": "proved",
   "theorems": [
    "c11_round_trip",
    "c11_within_one",
    "c11_within_rounding",
    "c11_order",
    "c11_seconds",
    "c11_exact_refuted",
    "c11_bound_sharp",
    "c11_longest",
    "c11_nearest",
    "c11_nearest_sharp",
    "c11_again",
    "c11_order_back",
    "c11_again_refuted"
   ],
   "note": "IEEE binary64, round to nearest even."
  },
  {
   "property": "C39",
   "status": "proved",
   "theorems": [
    "c39_setters",
    "c39_getters_determine",
    "c39_constructors",
    "c39_identity",
    "c39_inverse_times",
    "c39_motions",
    "c39_frames_checked"
   ],
   "note": "Over the reals."
  },
  {
   "property": "C40",
   "status": "proved",
   "theorems": [
    "c40_append",
    "c40_history",
    "c40_history_determines",
    "c40_append_list",
    "c40_construction",
    "c40_point_at",
    "c40_inside",
    "c40_from_start",
    "c40_control_points",
    "c40_first_control_point",
    "c40_control_points_close",
    "c40_empty",
    "c40_new",
    "c40_curve_start_refuted"
   ],
   "note": "Times are int64 nanoseconds converted to IEEE binary64 seconds bit for bit; interpolation over the reals."
  },
  {
   "property": "C41",
   "status": "proved",
   "theorems": [
    "c41_accepted",
    "c41_end_time",
    "c41_end_round_trip",
    "c41_end_refuted",
    "c41_accepted_refuted"
   ],
   "note": "IEEE binary64 conversion; that end_time() is the last timestamp is refuted."
  },
  {
   "property": "C44",
   "status": "proved",
   "theorems": [
    "c44_so3_jets",
    "c44_se3_jets",
    "c44_so3_curve",
    "c44_se3_curve",
    "c44_distance_curve",
    "c44_trajectory",
    "c44_timestamp_valid",
    "c44_destination",
    "c44_se3_curve_accepts",
    "c44_so3_curve_accepts",
    "c44_distance_curve_accepts",
    "c44_jets_accept",
    "c44_trajectory_accepts",
    "c44_target",
    "c44_exact_refuted",
    "c44_timestamp_valid_refuted",
    "c44_representable"
   ],
   "note": "Over the reals; messages are their field values."
  },
  {
   "property": "C45",
   "status": "proved",
   "theorems": [
    "c45_primitive",
    "c45_update",
    "c45_primitive_accepts",
    "c45_payload_accepts",
    "c45_update_accepts",
    "c45_destination",
    "c45_names_kept_refuted"
   ],
   "note": "Messages are their field values."
  },
  {
   "property": "C47",
   "status": "proved",
   "theorems": [
    "c47_mean_centre",
    "c47_mean_defined",
    "c47_mean_affine",
    "c47_covariance",
    "c47_symmetric",
    "c47_semi_definite",
    "c47_correlation",
    "c47_covariance_affine",
    "c47_mean_order",
    "c47_covariance_order",
    "c47_many_refuted",
    "c47_divisor_refuted"
   ],
   "note": "Over the reals; any number of samples and dimensions."
  },
  {
   "property": "C48",
   "status": "proved",
   "theorems": [
    "c48_accepts",
    "c48_numerical_issue",
    "c48_holds",
    "c48_reproduces",
    "c48_samples",
    "c48_sample_statistics",
    "c48_convergence_refuted",
    "c48_one_by_one_refuted"
   ],
   "note": "Over the reals; eigenvalue solver and random numbers are parameters."
  },
  {
   "property": "C56",
   "status": "proved",
   "theorems": [
    "c56_rotations_by_angle",
    "c56_angle_threshold",
    "c56_rotations_invariant",
    "c56_reflexive_symmetric",
    "c56_transitive_refuted",
    "c56_poses",
    "c56_jets",
    "c56_zero_only_to_zero",
    "c56_left_jet_zero_only_to_zero",
    "c56_right_jet_zero_only_to_zero",
    "c56_some_tolerance_refuted",
    "c56_bounded_distance_refuted",
    "c56_pose_invariance_refuted"
   ],
   "note": "Over the reals."
  },
  {
   "property": "C58",
   "status": "proved",
   "theorems": [
    "c58_statements_show",
    "c58_failures",
    "c58_one_new_id_per_update",
    "c58_shown_once_refuted"
   ],
   "note": "One thread; C52 and C53 cover several."
  },
  {
   "property": "C59",
   "status": "proved",
   "theorems": [
    "c59_times_increase",
    "c59_lookup",
    "c59_nan",
    "c59_range_checked_refuted",
    "c59_normalized",
    "c59_monotone",
    "c59_durations",
    "c59_end_is_one_refuted",
    "c59_number_refuted",
    "c59_long_number_refuted"
   ],
   "note": "binary64; times only, without points and frames."
  },
  {
   "property": "C60",
   "status": "proved",
   "theorems": [
    "c60_exact_polynomials",
    "c60_accuracy",
    "c60_exact_at_ends",
    "c60_nan",
    "c60_segment_ends",
    "c60_weight_at_most_one_refuted"
   ],
   "note": "binary64."
  },
  {
   "property": "C61",
   "status": "proved",
   "theorems": [
    "c61_so3",
    "c61_se3",
    "c61_se3_straight",
    "c61_uniform_so3",
    "c61_uniform_straight",
    "c61_far_refuted"
   ],
   "note": "Over the reals."
  },
  {
   "property": "C62",
   "status": "proved",
   "theorems": [
    "c62_clock",
    "c62_reference",
    "c62_point_so3",
    "c62_point_se3",
    "c62_half_turn_refuted",
    "c62_backwards_refuted"
   ],
   "note": "Over the reals."
  },
  {
   "property": "C63",
   "status": "proved",
   "theorems": [
    "c63_arcs",
    "c63_sum",
    "c63_lookup",
    "c63_length",
    "c63_fraction",
    "c63_monotone",
    "c63_fraction_range_refuted",
    "c63_endless",
    "c63_nan",
    "c63_passed_over",
    "c63_end_reached_refuted"
   ],
   "note": "binary64; arc lengths only, without poses and frames. C36 and C37 cover the poses over the reals."
  },
  {
   "property": "C64",
   "status": "proved",
   "theorems": [
    "c64_error",
    "c64_vectors",
    "c64_right_angles",
    "c64_exact_entries",
    "c64_quarter_turns",
    "c64_bounded_drift_refuted",
    "c64_inverse_refuted",
    "c64_associative_refuted"
   ],
   "note": "binary64; without frames. Eigen is modelled by allowing both orders of summation and no fused multiply-add."
  },
  {
   "property": "C65",
   "status": "proved",
   "theorems": [
    "c65_error",
    "c65_points",
    "c65_inverse_refuted"
   ],
   "note": "binary64; without frames. Eigen as in C64."
  },
  {
   "property": "C66",
   "status": "proved",
   "theorems": [
    "c66_angle_axis",
    "c66_exp",
    "c66_turning",
    "c66_exp_zero",
    "c66_opposite",
    "c66_composed",
    "c66_quaternion",
    "c66_quaternion_turns",
    "c66_exp_finite_refuted",
    "c66_any_quaternion_refuted"
   ],
   "note": "binary64; without frames. Eigen as in C64; sine and cosine are any results within one unit in the last place, exact at zero."
  },
  {
   "property": "C67",
   "status": "proved",
   "theorems": [
    "c67_exp",
    "c67_no_turn",
    "c67_exp_diff",
    "c67_composed",
    "c67_full_precision_refuted"
   ],
   "note": "binary64; without frames. Eigen as in C64; sine and cosine as in C66."
  },
  {
   "property": "C68",
   "status": "proved",
   "theorems": [
    "c68_steady",
    "c68_steady_segment",
    "c68_reference",
    "c68_mounted"
   ],
   "note": "Over the reals."
  },
  {
   "property": "C69",
   "status": "proved",
   "theorems": [
    "c69_quaternion",
    "c69_log",
    "c69_recovers",
    "c69_log_exp",
    "c69_half_turn_refuted",
    "c69_exp_log",
    "c69_interp",
    "c69_interp_follows",
    "c69_interp_ends",
    "c69_identity"
   ],
   "note": "binary64; without frames. Eigen as in C64, with the quaternion and angle-axis conversions of 3.4.0; sine and cosine as in C66, the arctangent any result within one unit in the last place."
  },
  {
   "property": "C70",
   "status": "proved",
   "theorems": [
    "c70_circle",
    "c70_framed_circle",
    "c70_sensor",
    "c70_bend",
    "c70_time_circle",
    "c70_raised",
    "c70_shifted",
    "c70_shifted_refuted",
    "c70_midpoint",
    "c70_one_angle",
    "c70_two_angles",
    "c70_angles_refuted"
   ],
   "note": "Over the reals."
  },
  {
   "property": "C71",
   "status": "proved",
   "theorems": [
    "c71_log",
    "c71_recovers",
    "c71_log_exp",
    "c71_exp_log",
    "c71_interp",
    "c71_interp_follows",
    "c71_interp_ends",
    "c71_arc_length",
    "c71_arc_length_follows",
    "c71_no_turn"
   ],
   "note": "binary64; without frames. Eigen as in C64 and C69; sine, cosine and arctangent as in C66 and C69."
  },
  {
   "property": "C72",
   "status": "proved",
   "theorems": [
    "c72_length",
    "c72_point_at",
    "c72_defined",
    "c72_refused",
    "c72_start_refuted"
   ],
   "note": "binary64; without frames. Eigen as in C64 and C69; sine, cosine and arctangent as in C66 and C69."
  },
  {
   "property": "C73",
   "status": "proved",
   "theorems": [
    "c73_calls_best",
    "c73_order",
    "c73_plain",
    "c73_own_branches",
    "c73_default",
    "c73_own_first",
    "c73_mutable_refuted",
    "c73_unhandled_refuted",
    "c73_change_refuted",
    "c73_check_refuted"
   ],
   "note": "Overload resolution is modelled for branches with one parameter, without user-defined conversions."
  },
  {
   "property": "C74",
   "status": "proved",
   "theorems": [
    "c74_between",
    "c74_point_at",
    "c74_ends"
   ],
   "note": "binary64; SO3 only, without frames. Eigen as in C64 and C69; sine, cosine and arctangent as in C66 and C69."
  },
  {
   "property": "C75",
   "status": "proved",
   "theorems": [
    "c75_exact",
    "c75_made",
    "c75_point_at",
    "c75_controls",
    "c75_refused",
    "c75_nan",
    "c75_in_range_refuted"
   ],
   "note": "binary64; SO3 only, without frames. Eigen as in C64 and C69; sine, cosine and arctangent as in C66 and C69."
  },
  {
   "property": "C76",
   "status": "proved",
   "theorems": [
    "c76_received",
    "c76_status",
    "c76_refused",
    "c76_exists",
    "c76_once_refuted"
   ],
   "note": "cpp-httplib, cpr and the regular expression of the route are represented by their documented behaviour; reading and unpacking of a message and the text of the receiver's answer are parameters."
  },
  {
   "property": "C77",
   "status": "proved",
   "theorems": [
    "c77_as_if",
    "c77_confined",
    "c77_fixed",
    "c77_impossible_refuted",
    "c77_has_value_safe_refuted"
   ],
   "note": "Straight-line programs over one type; what does not compile is left out."
  },
  {
   "property": "C78",
   "status": "proved",
   "theorems": [
    "c78_get_jwt",
    "c78_new",
    "c78_exists",
    "c78_early_approval_refuted"
   ],
   "note": "JSON is represented by the parsed messages; one client per server."
  },
  {
   "property": "C79",
   "status": "proved",
   "theorems": [
    "c79_between",
    "c79_point_at",
    "c79_ends"
   ],
   "note": "binary64; without frames. Eigen as in C64 and C69; sine, cosine and arctangent as in C66 and C69."
  },
  {
   "property": "C80",
   "status": "proved",
   "theorems": [
    "c80_exact",
    "c80_made",
    "c80_point_at",
    "c80_controls",
    "c80_refused",
    "c80_nan",
    "c80_in_range_refuted"
   ],
   "note": "binary64; SE3, without frames. Eigen as in C64 and C69; sine, cosine and arctangent as in C66 and C69."
  },
  {
   "property": "C81",
   "status": "proved",
   "theorems": [
    "c81_exact",
    "c81_times",
    "c81_made",
    "c81_point_at",
    "c81_controls",
    "c81_from_start",
    "c81_refused"
   ],
   "note": "binary64; without frames, which C40 covers. Eigen as in C64 and C69; sine, cosine and arctangent as in C66 and C69."
  },
  {
   "property": "C82",
   "status": "proved",
   "theorems": [
    "c82_sum",
    "c82_mean",
    "c82_mean_defined",
    "c82_covariance",
    "c82_semi_definite",
    "c82_accepted",
    "c82_equal_refuted",
    "c82_own_samples_refuted"
   ],
   "note": "binary64; Eigen's sums in any order and grouping, fused multiply-adds excluded. The Gaussian's constructor is the exact one of the StatModel, on the values computed here."
  },
  {
   "property": "C83",
   "status": "proved",
   "theorems": [
    "c83_riding",
    "c83_upon",
    "c83_product",
    "c83_inverse",
    "c83_inverse_times",
    "c83_left"
   ],
   "note": "binary64, SE3 without frames (C29, C30 and C39 cover those); fused multiply-adds excluded."
  },
  {
   "property": "C84",
   "status": "proved",
   "theorems": [
    "c84_rectangles",
    "c84_integral",
    "c84_program"
   ],
   "note": "binary64; std::sqrt correctly rounded, std::cos and std::sin within one unit in the last place, no fused multiply-adds. The printed numbers are their values, shown with nine decimals."
  },
  {
   "property": "C85",
   "status": "proved",
   "theorems": [
    "c85_vectors",
    "c85_rotations",
    "c85_compositions",
    "c85_round_trips",
    "c85_exponentials",
    "c85_pose_round_trips",
    "c85_pose_compositions",
    "c85_zero",
    "c85_inverse_refuted",
    "c85_self",
    "c85_symmetric",
    "c85_transitive_refuted",
    "c85_extremes",
    "c85_direction_refuted"
   ],
   "note": "binary64; Eigen's sums of squares in any order and grouping, fused multiply-adds excluded. Frames, which C56 covers, are left out."
  },
  {
   "property": "C86",
   "status": "proved",
   "theorems": [
    "c86_rigid",
    "c86_composition",
    "c86_flight",
    "c86_return_refuted",
    "c86_turn",
    "c86_bend",
    "c86_radius_refuted"
   ],
   "note": "Over the reals, with the rounding of the conversions between times and seconds; c86_return_refuted and c86_radius_refuted show that the comment and the intended radius of example 04 are wrong."
  },
  {
   "property": "C87",
   "status": "proved",
   "theorems": [
    "c87_opposite",
    "c87_opposite_test",
    "c87_self",
    "c87_self_refuted",
    "c87_matrix",
    "c87_matrix_pose",
    "c87_group_near",
    "c87_group",
    "c87_by_adjoint",
    "c87_noop",
    "c87_distance",
    "c87_distance_extremes",
    "c87_distance_refuted"
   ],
   "note": "binary64; Eigen's sums in any order and grouping, fused multiply-adds excluded. Frames are left out; C14-C16 and C27 cover them. c87_self_refuted and c87_distance_refuted show what fails for extreme entries."
  },
  {
   "property": "C88",
   "status": "proved",
   "theorems": [
    "c88_sizes",
    "c88_rejects_asymmetric",
    "c88_rejects_nan",
    "c88_rejects_solution",
    "c88_accepts",
    "c88_accepts_infinite",
    "c88_symmetric_refuted",
    "c88_semi_definite_refuted",
    "c88_holds",
    "c88_reproduces",
    "c88_samples"
   ],
   "note": "binary64; Eigen's sums in any order and grouping, fused multiply-adds excluded; the eigenvalue solver and the draws are arbitrary. c88_symmetric_refuted and c88_semi_definite_refuted show which matrices that are no covariances the checks let through."
  },
  {
   "property": "C89",
   "status": "proved",
   "theorems": [
    "c89_count",
    "c89_so3_elements",
    "c89_se3_elements",
    "c89_group_elements",
    "c89_constants",
    "c89_lengths",
    "c89_so3_tests",
    "c89_se3_tests",
    "c89_identity_tests",
    "c89_equality",
    "c89_unique_refuted"
   ],
   "note": "binary64; Eigen's sums in any order and grouping, fused multiply-adds excluded. The Mersenne twister and its distribution are any function of a state giving numbers from -1 to 1. SelfAdjointNoop, CompositionByAdjoint and AdjointAndTimesGroup of SE3 are not claimed for translations of 10^6; C87 has them for smaller ones. c89_unique_refuted shows that a comment of the test is wrong."
  },
  {
   "property": "C90",
   "status": "proved",
   "theorems": [
    "c90_jets",
    "c90_alike",
    "c90_jet",
    "c90_t_curve",
    "c90_nan_time",
    "c90_circle",
    "c90_frames",
    "c90_poses",
    "c90_d_curves",
    "c90_t_curves",
    "c90_trajectories",
    "c90_vectors",
    "c90_minimum_refuted",
    "c90_test_curve",
    "c90_primitive"
   ],
   "note": "The exponential is an arbitrary function, which covers SO3 and SE3; the circles are over the reals; segments of the test time curves are left out (C75, C80). c90_minimum_refuted: the documented minimum of seven does not hold for FramedVector."
  },
  {
   "property": "C91",
   "status": "proved",
   "theorems": [
    "c91_make",
    "c91_nothing_left",
    "c91_keeps",
    "c91_ends",
    "c91_relative_refuted",
    "c91_file",
    "c91_in_directory_refuted"
   ],
   "note": "Without symbolic links and rights, so that remove_all does not fail; what a test does beneath its directories is arbitrary. c91_relative_refuted: a relative temporary path and a change of the current directory; c91_in_directory_refuted: an extension with slashes."
  },
  {
   "property": "C92",
   "status": "proved",
   "theorems": [
    "c92_counts",
    "c92_overflow",
    "c92_original_refuted"
   ],
   "note": "c92_original_refuted shows that the original of a copy or move does not count it, and that an assignment forgets what the object counted."
  },
  {
   "property": "C93",
   "status": "proved",
   "theorems": [
    "c93_life",
    "c93_wrong",
    "c93_never_throws",
    "c93_served",
    "c93_post",
    "c93_invalid_refuted"
   ],
   "note": "cpp-httplib is represented by what its version 0.11.4 does with the calls made; one request at a time, no multipart forms or ranges. c93_invalid_refuted: a receiver that sets no status is answered with 200."
  },
  {
   "property": "C94",
   "status": "proved",
   "theorems": [
    "c94_two_words",
    "c94_uniform",
    "c94_split_tests",
    "c94_expectation",
    "c94_seconds_tests",
    "c94_any_seed_refuted"
   ],
   "note": "The distribution is that of libstdc++; binary64, fused multiply-adds excluded. Which words the generator gives is left open. c94_any_seed_refuted: other seeds could fail the tests or make them undefined."
  }
 ]
}