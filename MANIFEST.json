{"claims": [
{"property": "C01", "status": "proved", "theorems": ["C01_row_major_bijection", "C01_large_grid_refuted"], "note": ""},
{"property": "C02", "status": "proved", "theorems": ["C02_bounds_exact", "C02_index_bounds_exact", "C02_pair_bounds_imply_index_bounds", "C02_empty_grid_accepts_everything"], "note": ""},
{"property": "C03", "status": "proved", "theorems": ["C03_constructor_accepts_iff_size_matches", "C03_message_constructor_accepts_iff_size_matches", "C03_reads_total_after_construction", "C03_overflowing_size_accepted_refuted", "C03_size", "C03_size_wraps_refuted", "C03_default"], "note": ""},
{"property": "C04", "status": "proved", "theorems": ["C04_update_is_message", "C04_update_extent", "C04_update_checks_size_refuted", "C04_sized_messages_keep_reads_total"], "note": "The size-check expectation is false of the code (grid update does not check); refutation with witness, plus the true statement for sized messages."},
{"property": "C05", "status": "proved", "theorems": ["C05_cell_centre_round_trip", "C05_cell_centre_round_trip_binary64", "C05_far_origin_refuted"], "note": "Reals: all grids. binary64: under stated magnitude bounds; false for far origins (refuted theorem)."},
{"property": "C06", "status": "proved", "theorems": ["C06_world2Grid_containing_cell", "C06_world2Grid_containing_cell_binary64"], "note": "Reals, and binary64 up to 2^-19 of a cell."},
{"property": "C07", "status": "proved", "theorems": ["C07_left_or_below_is_undefined", "C07_off_map_rejected_refuted", "C07_far_right_or_above_is_out_of_bounds", "C07_in_bounds_means_near", "C07_left_or_below_is_undefined_binary64"], "note": "Off-map points left of or below the origin are undefined behaviour; refuted expectation with witness, true parts proved. The undefined behaviour also in binary64 for cells of at most 1 m."},
{"property": "C08", "status": "proved", "theorems": ["C08_axis_length_inverts_axis_upper", "C08_axis_length_nearest", "C08_axis_length_inverts_axis_upper_binary64", "C08_constructors_agree_binary64", "C08_far_origin_refuted"], "note": "Reals and binary64; false in binary64 for far lower limits (refuted theorem)."},
{"property": "C09", "status": "proved", "theorems": ["C09_overloads_agree", "C09_read_is_stored_byte", "C09_reads_order_binary64"], "note": ""},
{"property": "C10", "status": "proved", "theorems": ["C10_collision_exact", "C10_collision_exact_on_map"], "note": ""},
{"property": "C11", "status": "proved", "theorems": ["C11_queries_agree"], "note": ""},
{"property": "C12", "status": "proved", "theorems": ["C12_nearest_obstacle", "C12_none_means_nothing_scanned"], "note": ""},
{"property": "C13", "status": "proved", "theorems": ["C13_total", "C13_each_cell_once", "C13_large_radius_refuted"], "note": "Proved for radii up to 46340 cells and robot cells up to 2^30; sharp (46341 overflows)."},
{"property": "C14", "status": "proved", "theorems": ["C14_chain_crosses_circle", "C14_wall_is_seen"], "note": ""},
{"property": "C15", "status": "proved", "theorems": ["C15_every_near_cell_reported_refuted", "C15_inside_boundary_refuted", "C15_blind_inside_boundary", "C15_gaps_at_every_distance", "C15_two_cells_reported", "C15_axis_cells_reported"], "note": "Expectation refuted with binary64 witnesses; blind zone characterised; unreported diagonal cells at every distance; edge-adjacent pairs and axis cells are always reported."},
{"property": "C16", "status": "proved", "theorems": ["C16_unknown_is_never_an_obstacle_binary64", "C16_unknown_is_never_an_obstacle", "C16_raising_threshold_binary64", "C16_raising_threshold", "C16_high_threshold_disables_binary64", "C16_high_threshold_disables"], "note": ""},
{"property": "C17", "status": "proved", "theorems": ["C17_constructor_validation", "C17_nan_is_accepted", "C17_nan_threshold_occupies_everything"], "note": ""},
{"property": "C18", "status": "proved", "theorems": ["C18_keeps_the_oldest", "C18_number_stored"], "note": ""},
{"property": "C19", "status": "proved", "theorems": ["C19_all_stored_then_trajectory", "C19_samples_then_trajectory", "C19_empty_trajectory_refuted"], "note": ""},
{"property": "C20", "status": "proved", "theorems": ["C20_wraps", "C20_identity_in_range", "C20_idempotent", "C20_canonical", "C20_binary64_range_refuted", "C20_binary64_moderate"], "note": ""},
{"property": "C21", "status": "proved", "theorems": ["C21_wraps", "C21_canonical", "C21_binary64_range_refuted", "C21_binary64_moderate"], "note": ""},
{"property": "C22", "status": "proved", "theorems": ["C22_yaw_quaternion", "C22_yaw_of_rpy"], "note": ""},
{"property": "C23", "status": "proved", "theorems": ["C23_acts_as_rigid_motion", "C23_composes", "C23_translation_then_rotation", "C23_preserves_distance", "C23_inverse_refuted", "C23_inverse_only_if", "C23_correct_inverse"], "note": ""},
{"property": "C24", "status": "proved", "theorems": ["C24_exact_motion", "C24_motion_exists", "C24_durations_add", "C24_heading"], "note": ""},
{"property": "C25", "status": "proved", "theorems": ["C25_accepts_exactly", "C25_rejects_exactly", "C25_shorter_horizon", "C25_initial_pose_unchecked"], "note": ""},
{"property": "C26", "status": "proved", "theorems": ["C26_path_follows_motion"], "note": ""},
{"property": "C27", "status": "proved", "theorems": ["C27_step_count", "C27_step_count_defined", "C27_binary64_rounding", "C27_zero_step_undefined"], "note": ""},
{"property": "C28", "status": "proved", "theorems": ["C28_known_binary64", "C28_unknown_binary64", "C28_unknown_ranks_highest_binary64", "C28_symmetric", "C28_positive_at_most_ln2", "C28_maximum_at_half", "C28_unknown", "C28_certain", "C28_unknown_ranks_highest"], "note": ""},
{"property": "C29", "status": "proved", "theorems": ["C29_metric", "C29_polar"], "note": ""},
{"property": "C30", "status": "proved", "theorems": ["C30_ray_cells", "C30_segment_box", "C30_segment_start", "C30_effect"], "note": ""},
{"property": "C31", "status": "proved", "theorems": ["C31_outside", "C31_effect", "C31_only_on_rays", "C31_beam_end", "C31_defined_on_known_maps"], "note": ""},
{"property": "C32", "status": "proved", "theorems": ["C32_range", "C32_certainty_absorbing"], "note": "binary64, for every exp/log obeying the annex F rules listed in SpecMapping.explog_rules."},
{"property": "C33", "status": "proved", "theorems": ["C33_unknown_cells_refuted", "C33_cell_refuted"], "note": "Expectation refuted: any used beam touching a negative cell makes the update undefined; witness as Example."},
{"property": "C34", "status": "proved", "theorems": ["C34_occupied", "C34_free"], "note": ""},
{"property": "C35", "status": "proved", "theorems": ["C35_gated_ignored", "C35_all_gated", "C35_gate", "C35_bearing", "C35_nan_range_undefined"], "note": ""},
{"property": "C36", "status": "proved", "theorems": ["C36_numbers", "C36_constructed", "C36_too_many", "C36_values", "C36_weights"], "note": ""},
{"property": "C37", "status": "proved", "theorems": ["C37_gradient", "C37_boundary"], "note": ""},
{"property": "C38", "status": "proved", "theorems": ["C38_traj_mean", "C38_traj_bounds", "C38_traj_order", "C38_spatial", "C38_spatial_bounds"], "note": ""},
{"property": "C39", "status": "proved", "theorems": ["C39_sum", "C39_gaussian", "C39_gaussian_untranslated", "C39_bump", "C39_translation", "C39_order", "C39_constructor"], "note": ""},
{"property": "C40", "status": "proved", "theorems": ["C40_distribution", "C40_empty_target_is_nan"], "note": "Non-empty targets over the reals; empty target NaN in binary64."},
{"property": "C41", "status": "proved", "theorems": ["C41_history", "C41_invalid_delete_undefined"], "note": ""},
{"property": "C42", "status": "proved", "theorems": ["C42_markers", "C42_extent_is_sorted", "C42_extent_follows_sigma_refuted"], "note": "Expectation refuted with witness; counts, ids and positions proved."},
{"property": "C43", "status": "proved", "theorems": ["C43_omni", "C43_simple_cart", "C43_cart", "C43_mecanum"], "note": ""},
{"property": "C44", "status": "proved", "theorems": ["C44_cart", "C44_mecanum", "C44_mecanum_inverse", "C44_simple_cart", "C44_omni"], "note": ""},
{"property": "C45", "status": "proved", "theorems": ["C45_throws", "C45_accepts", "C45_binary64"], "note": ""},
{"property": "C46", "status": "proved", "theorems": ["C46_step", "C46_columns", "C46_step_count", "C46_defined", "C46_trajectory", "C46_driven_exists"], "note": ""},
{"property": "C47", "status": "proved", "theorems": ["C47_rhodot", "C47_exact_step", "C47_exact_step_simple_cart", "C47_exact_step_cart", "C47_exact_step_mecanum", "C47_recurrence", "C47_forward_order", "C47_defined"], "note": ""},
{"property": "C48", "status": "proved", "theorems": ["C48_step", "C48_exact_refuted", "C48_never_accepts"], "note": "Expectation refuted (the weights of the fifth-order estimate do not sum to one); the exact result of a step is proved."},
{"property": "C49", "status": "proved", "theorems": ["C49_inverted_limits", "C49_inverted_limits_undefined", "C49_terminates", "C49_costate_terminates", "C49_storage_refuted", "C49_one_more_column"], "note": "Termination of the adaptive loop proved for any arithmetic; the expectation on storage is refuted with a witness, one more column is proved to suffice. The fit after the loop is the subject of C80."},
{"property": "C50", "status": "proved", "theorems": ["C50_success", "C50_success_binary64", "C50_failure_binary64", "C50_failure", "C50_follow_success", "C50_follow_success_binary64", "C50_follow_failure_binary64", "C50_follow_cost_unique", "C50_follow_cost"], "note": "Success and failure, both overloads, binary64 and reals. Over the reals failure also covers costs within 1e-12 of the maximum double."},
{"property": "C51", "status": "proved", "theorems": ["C51_within_limits", "C51_ends_are_samples", "C51_one_sample", "C51_equally_spaced", "C51_control"], "note": ""},
{"property": "C52", "status": "proved", "theorems": ["C52_inverted_window_refuted", "C52_control_exceeds_limit_refuted", "C52_cart_lateral_refuted", "C52_cart_follow_lateral_refuted", "C52_binary64_refuted", "C52_control_near_limits_binary64", "C52_follow_near_limits_binary64"], "note": "Expectation refuted: inverted windows, lateral velocity of the cart node, rounding of the accumulated sum (complete binary64 runs). A window that is not inverted stays within the limits but for the rounding of the samples, in binary64."},
{"property": "C53", "status": "proved", "theorems": ["C53_counts_at_least_one", "C53_evaluated"], "note": ""},
{"property": "C54", "status": "proved", "theorems": ["C54_in_range", "C54_follow_never_throws", "C54_exact_limit", "C54_empty_reference_undefined", "C54_follow_never_throws_binary64"], "note": "Index in range over the reals, with the exact limit, and in binary64 for at most 2^24 steps; the empty reference in binary64."},
{"property": "C55", "status": "proved", "theorems": ["C55_limits", "C55_limits_binary64", "C55_inverted_limits"], "note": "Reals; binary64 with NaN as the only exception, which occurs (C56_refuted)."},
{"property": "C56", "status": "proved", "theorems": ["C56_never_throws", "C56_throws_only_on_nan_binary64", "C56_refuted"], "note": "Holds over the reals; binary64: throws only after NaN columns, and a complete run in which it throws."},
{"property": "C57", "status": "proved", "theorems": ["C57_columns", "C57_first_column_dropped", "C57_warm_start", "C57_trajectory", "C57_path", "C57_path_defined"], "note": "Any arithmetic, except the orientation of the path (reals)."},
{"property": "C58", "status": "proved", "theorems": ["C58_recomputed", "C58_unchanged", "C58_control_configures", "C58_new_target_refuted", "C58_new_origin_refuted"], "note": "Expectation refuted for a new target and for a shifted map; exact conditions for recomputation proved over the reals."},
{"property": "C59", "status": "proved", "theorems": ["C59_ergodic_gradient"], "note": ""},
{"property": "C60", "status": "proved", "theorems": ["C60_barrier_gradient", "C60_barrier_sign"], "note": ""},
{"property": "C61", "status": "proved", "theorems": ["C61_minimises"], "note": ""},
{"property": "C62", "status": "proved", "theorems": ["C62_constructor", "C62_zero_steps"], "note": ""},
{"property": "C63", "status": "proved", "theorems": ["C63_nothing_before", "C63_always_after", "C63_callbacks"], "note": "Any arithmetic, any interleaving."},
{"property": "C64", "status": "proved", "theorems": ["C64_checked_or_zero"], "note": "binary64, any libm. (Over the reals the check of the window differs only in its strictness at the largest double.)"},
{"property": "C65", "status": "proved", "theorems": ["C65_following_is_bounded", "C65_bound_is_reached"], "note": "Any arithmetic; bound and tightness."},
{"property": "C66", "status": "proved", "theorems": ["C66_replans", "C66_nothing_found"], "note": "Any arithmetic; the zero twist in binary64."},
{"property": "C67", "status": "proved", "theorems": ["C67_safe_when_published_refuted", "C67_half_updated_map_refuted"], "note": "Two complete binary64 runs of the cart node as witnesses."},
{"property": "C68", "status": "proved", "theorems": ["C68_last_pose", "C68_memory", "C68_stale_pose", "C68_plans_from_it"], "note": "Any arithmetic."},
{"property": "C69", "status": "proved", "theorems": ["C69_rays_start_at_base", "C69_only_between_sensor_and_end_refuted"], "note": "Expectation refuted with binary64 witness; general statement about the base cell proved."},
{"property": "C70", "status": "proved", "theorems": ["C70_fifteen_free_observations", "C70_then_never_occupied"], "note": "First half in exact arithmetic (reals), second half in binary64."},
{"property": "C71", "status": "proved", "theorems": ["C71_control_defined", "C71_uninitialised"], "note": "Reals. Memory exhaustion is not modelled."},
{"property": "C72", "status": "proved", "theorems": ["C72_optimality_system"], "note": "Reals; Omni model and SimpleCart with zero lateral limits."},
{"property": "C73", "status": "proved", "theorems": ["C73_motion", "C73_step", "C73_rollout", "C73_between"], "note": ""},
{"property": "C74", "status": "proved", "theorems": ["C74_left_or_below", "C74_right_or_above", "C74_free_map_is_enough_refuted"], "note": "The two exact behaviours off the map are proved over the reals; the expectation that a free map is enough is refuted by a binary64 run of the node."},
{"property": "C75", "status": "proved", "theorems": ["C75_near_limits_binary64", "C75_within_limits", "C75_cart_never_moves_sideways_refuted"], "note": "Over the reals, and in binary64 up to the rounding of the samples or NaN, under the stated assumption on odometry; without it refuted by a binary64 run."},
{"property": "C76", "status": "proved", "theorems": ["C76_reference_long_enough_refuted", "C76_step_to_spare"], "note": "The node's own check is not enough: refuted by a binary64 run. One step to spare is enough: proved over the reals."},
{"property": "C77", "status": "proved", "theorems": ["C77_iteration_completes", "C77_whole_maps"], "note": "Over the reals; memory exhaustion is not modelled."},
{"property": "C78", "status": "proved", "theorems": ["C78_clearance"], "note": ""},
{"property": "C79", "status": "proved", "theorems": ["C79_starts"], "note": ""},
{"property": "C80", "status": "proved", "theorems": ["C80_constant_velocity", "C80_omni_straight", "C80_four_steps", "C80_few_steps", "C80_costates"], "note": "arma::polyfit is a parameter: assumed is only that through at least five points of a line with different abscissae it returns a quartic of least squared deviation (an instance is given). That it throws for fewer than five points is Armadillo's documented requirement, not visible in /repo. Real arithmetic."},
{"property": "C81", "status": "proved", "theorems": ["C81_commanded_motions_keep_clear"], "note": "Real arithmetic."},
{"property": "C82", "status": "proved", "theorems": ["C82_forward", "C82_backward", "C82_next_step"], "note": "The stored points; the quartic fitted to them is C80 (constant velocity only)."},
{"property": "C83", "status": "proved", "theorems": ["C83_forward", "C83_backward"], "note": "The expectation that the scheme is Fehlberg's fails by the stated excess (see C48)."},
{"property": "C84", "status": "proved", "theorems": ["C84_callbacks", "C84_loop"], "note": ""},
{"property": "C85", "status": "proved", "theorems": ["C85_counts", "C85_given", "C85_defaults", "C85_int_or_double", "C85_integer_coordinate_refuted", "C85_integer_means", "C85_integer_sigmas", "C85_short_sigmas", "C85_no_means", "C85_rounding", "C85_buffer_size"], "note": "The expectation that integers and decimals are interchangeable is refuted for the coordinates of the targets. XmlRpcValue and NodeHandle are modelled from their documented behaviour."},
{"property": "C86", "status": "proved", "theorems": ["C86_starts", "C86_starts_binary64", "C86_limits", "C86_limits_binary64", "C86_completes"], "note": "Completion of every iteration is over the reals; in binary64 the start and the limits are proved."},
{"property": "C87", "status": "proved", "theorems": ["C87_plans", "C87_first_plan", "C87_plans_carried_over", "C87_first_control_commanded"], "note": "Real arithmetic. That the coefficients may come from an earlier map with another origin is the defect refuted in C58."},
{"property": "C88", "status": "proved", "theorems": ["C88_open_maps", "C88_percent_threshold"], "note": ""},
{"property": "C89", "status": "proved", "theorems": ["C89_each_pose_on_its_map", "C89_maps_read", "C89_coarse_executions", "C89_passes_on_one_map_refuted"], "note": "Planning still reads one map per iteration; the velocity of the robot is read once."},
{"property": "C90", "status": "proved", "theorems": ["C90_plan_out_of_sight", "C90_nothing_published", "C90_far_away", "C90_numbers_commanded_refuted"], "note": "Stated for the exponents as computed; C95_out_of_sight gives it for real distances."},
{"property": "C91", "status": "proved", "theorems": ["C91_rollout", "C91_validated", "C91_commanded", "C91_one_ulp_refuted"], "note": "The accuracy asked of sine and cosine is a hypothesis, met by correctly rounded functions; C91_one_ulp_refuted shows that the part on the cosine near 0 is needed."},
{"property": "C92", "status": "proved", "theorems": ["C92_validated", "C92_commanded"], "note": "The radii are the whole cells that the code computes. The motion is assumed to stay on the map, by the accumulated rounding error."},
{"property": "C93", "status": "proved", "theorems": ["C93_evaluate", "C93_distribution", "C93_target", "C93_trajectory_mean", "C93_trajectory_range", "C93_first_is_one_refuted"], "note": "A covariance whose inverse is not finite, nonnegative and at most 2^30 is outside the statement, as are values that all underflow to zero (C90)."},
{"property": "C94", "status": "proved", "theorems": ["C94_validated", "C94_commanded"], "note": "The map is assumed not to change within one collision check; walls that are on some of the maps only are kept clear of around the checks on those."},
{"property": "C95", "status": "proved", "theorems": ["C95_gaussian", "C95_evaluate", "C95_coefficients", "C95_out_of_sight"], "note": "The overload of the Gaussian without a translation, which the node does not call, is outside the statement."},
{"property": "C96", "status": "proved", "theorems": ["C96_derivatives", "C96_mode", "C96_gradient"], "note": "The coefficients of the trajectory and the target are taken to be as many as the modes, as the basis makes them."},
{"property": "C97", "status": "proved", "theorems": ["C97_derivative", "C97_gradient"], "note": ""},
{"property": "C98", "status": "proved", "theorems": ["C98_update", "C98_minimiser"], "note": ""},
{"property": "C99", "status": "proved", "theorems": ["C99_distance", "C99_any_distance_refuted", "C99_polar"], "note": ""}
]}
