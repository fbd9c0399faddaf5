{
 "claims": [
  {
   "property": "C01",
   "status": "proved",
   "theorems": [
    "C01_signed_canonical",
    "C01_unsigned_canonical",
    "C01_total",
    "C01_idempotent",
    "C01_separates",
    "C01_vector",
    "C01_zero_resolution_refuted",
    "C01_isExceeded_exact"
   ],
   "note": ""
  },
  {
   "property": "C02",
   "status": "proved",
   "theorems": [
    "C02_no_alias"
   ],
   "note": ""
  },
  {
   "property": "C03",
   "status": "proved",
   "theorems": [
    "C03_history"
   ],
   "note": ""
  },
  {
   "property": "C04",
   "status": "proved",
   "theorems": [
    "C04_box_exact"
   ],
   "note": ""
  },
  {
   "property": "C05",
   "status": "proved",
   "theorems": [
    "C05_validate_exact",
    "C05_validate_neighbours",
    "C05_validate_zero"
   ],
   "note": ""
  },
  {
   "property": "C06",
   "status": "proved",
   "theorems": [
    "C06_success_returns_a_real_path",
    "C06_path_ends_at_goal",
    "C06_partial_result_is_a_real_path",
    "C06_no_undefined_behaviour",
    "C06_float32_success_returns_a_real_path",
    "C06_float32_path_ends_at_goal",
    "C06_unreachable_start_heuristic_refuted"
   ],
   "note": ""
  },
  {
   "property": "C07",
   "status": "partial",
   "theorems": [
    "C07_optimal_partial",
    "C07_optimal_single_start_partial",
    "C07_batched_search_refuted",
    "C07_inconsistent_heuristic_refuted",
    "C07_unbalanced_starts_refuted"
   ],
   "note": "Proved for consistent heuristics, one task per batch and starts none of which is cheaper to reach from another start (single start: no such condition). The full statement is false of the code: refuted for admissible but inconsistent heuristics, for unbalanced start costs and for batches of more than one task."
  },
  {
   "property": "C08",
   "status": "proved",
   "theorems": [
    "C08_float32_search_decides_reachability",
    "C08_float32_failure_means_unreachable",
    "C08_float32_huge_costs_refuted",
    "C08_search_terminates",
    "C08_float32_search_terminates",
    "C08_failure_means_unreachable",
    "C08_search_decides_reachability"
   ],
   "note": "Both for exact costs and for IEEE binary32. Without a bound on the costs the float claim is false: two moves of 2^127 sum to infinity (C08_float32_huge_costs_refuted)."
  },
  {
   "property": "C09",
   "status": "proved",
   "theorems": [
    "C09_accepted_motion_is_collision_free",
    "C09_cost_reads_inside_the_map",
    "C09_straight_motion_stays_in_box",
    "C09_planned_path_sweeps_free_cells",
    "C09_published_poses_lie_in_free_cells",
    "C09_page_cells_cover_samples",
    "C09_curves_stay_within_their_length",
    "C09_cache_is_fit_for_the_moves",
    "C09_cache_covers_its_poses",
    "C09_planner_with_its_own_cache"
   ],
   "note": "The motion cache is modelled too (MotionReset.v): curves that can be driven stay within the length of their displacement, so the cache meets the premise of the theorems for the moves the planner tries (C09_cache_is_fit_for_the_moves, C09_planner_with_its_own_cache). Premises: float curve samples less than half a cell off, enumeration steps of at most half a cell, an even number of headings (or one close to parallel). A path of a single pose is covered by C06 and C63. Finding: max_range_ ignores the cells of curves."
  },
  {
   "property": "C10",
   "status": "proved",
   "theorems": [
    "C10_fill_terminates",
    "C10_values_are_shortest",
    "C10_start_cell_is_exact",
    "C10_unreachable_cells_keep_the_unreachable_value",
    "C10_start_value_is_schedule_independent",
    "C10_binary32_start_cell_is_exact"
   ],
   "note": "Costs are generic (integers, reals, binary32 instances). Values are counted from -0.5*euclid_cost at the goal, as in the code; the goal cell is 0 afterwards. Weighted costs are assumed non-negative."
  },
  {
   "property": "C11",
   "status": "partial",
   "theorems": [
    "C11_extended_values_are_shortest",
    "C11_extended_start_is_exact",
    "C11_extension_agrees_with_a_rebuilt_map",
    "C11_binary32_extension_agrees_with_a_rebuilt_map",
    "C11_values_belong_to_the_last_goal_partial",
    "C11_a_new_goal_rebuilds_the_map",
    "C11_calls_complete",
    "C11_start_outside_the_map_refuted",
    "C11_update_keeps_stale_values_refuted",
    "C11_update_can_lose_the_shortest_cost_refuted"
   ],
   "note": "Proved: on one costmap, for every history of create/update calls with starts and goals inside the map, values are costs of routes from the last goal, a changed goal rebuilds the map, and every call completes; after any sequence of updates for other starts whose areas contain no reached cell, the start's value equals the one of a map built from scratch (also in binary32), and the other values are shortest up to the overshoot. Missing/refuted: a goal given while the start is outside the map is remembered without being computed, so the next update works on the old goal's values; after a costmap change an update keeps stale values in another connected part; even on an unchanged costmap an update whose area contains reached cells can leave values above the shortest cost."
  },
  {
   "property": "C12",
   "status": "proved",
   "theorems": [
    "C12_shown_cost_is_a_percentage",
    "C12_filter_value_moves_as_observed",
    "C12_shown_cost_is_the_cells_own_filter",
    "C12_refresh_is_complete",
    "C12_cells_are_independent"
   ],
   "note": "The incremental refresh is proved equal to recomputing every cell (generic in the filter), cells are independent, and with the code's own float/double arithmetic (Flocq) every shown cost is in [0,100] for every history whose hit/miss odds are not NaN."
  },
  {
   "property": "C13",
   "status": "proved",
   "theorems": [
    "C13_costmap_is_static_plus_latest_update",
    "C13_older_updates_leave_no_residue",
    "C13_angular_window_is_not_checked_refuted",
    "C13_wrapping_area_is_accepted_refuted"
   ],
   "note": "Proved by invariant over arbitrary histories of maps and updates. Findings: the acceptance test ignores the yaw offset and lets position plus width wrap, so such updates are laid over outside the grids (two _refuted theorems)."
  },
  {
   "property": "C14",
   "status": "proved",
   "theorems": [
    "C14_search_finds_a_nearest_pose",
    "C14_relocation_is_free_and_nearest",
    "C14_rough_relocation_is_free_and_nearest",
    "C14_binary32_relocation_is_free_and_nearest",
    "C14_minimum_distance_is_kept_refuted",
    "C14_rough_relocation_keeps_orientation_refuted"
   ],
   "note": "Proved for every costmap, pose, tolerance and ordered cost arithmetic, instantiated at binary32. Findings: the second attempt drops the minimum distance; relocation on the costs by cell (make_plan service) can change the orientation although the following search never does."
  },
  {
   "property": "C15",
   "status": "proved",
   "theorems": [
    "C15_goal_state_is_consistent",
    "C15_goals_are_answered_at_most_once",
    "C15_only_valid_goals_become_active",
    "C15_invalid_orientation_clears_the_goal",
    "C15_success_is_earned",
    "C15_no_goal_no_path",
    "C15_no_goal_means_done_refuted",
    "C15_goal_for_the_other_action_is_answered_refuted",
    "C15_giving_up_is_reported_refuted"
   ],
   "note": "State machine of the node with arbitrary answers for map, poses and search; actionlib's SimpleActionServer is modelled from its documented behaviour. Findings proved as _refuted: a planner without a goal can be reported DOING for ever (goal cleared by an invalid orientation); a goal sent to one action while the other runs is never answered; giving up after max_retry_num is not reported on the status topic."
  },
  {
   "property": "C16",
   "status": "proved",
   "theorems": [
    "C16_stale_costmap_stops",
    "C16_stale_costmap_gives_no_path",
    "C16_stale_costmap_is_reported_without_goal_refuted",
    "C16_refused_update_plans_on_stale_costmap_refuted"
   ],
   "note": "Findings proved as _refuted: without a goal the report is GOING_WELL although the costmap is stale; with planning triggered by costmap updates, a refused update plans on the stale costmap."
  },
  {
   "property": "C17",
   "status": "proved",
   "theorems": [
    "C17_goals_in_order",
    "C17_all_waypoints_sent",
    "C17_new_path_cancels_running_patrol",
    "C17_idle_without_path"
   ],
   "note": "A result other than succeeded/aborted (rejected, preempted, lost) stalls the patrol until a new path arrives; the exact characterisation includes this."
  },
  {
   "property": "C18",
   "status": "proved",
   "theorems": [
    "C18_round_trip",
    "C18_position_converts_to_its_cell",
    "C18_conversion_defined_iff",
    "C18_cell_is_found",
    "C18_path_position_stays_in_its_cell",
    "C18_float_positions_shift_half_a_cell",
    "C18_cells_are_disjoint",
    "C18_round_trip_ieee"
   ],
   "note": ""
  },
  {
   "property": "C19",
   "status": "proved",
   "theorems": [
    "C19_lookup_periodic",
    "C19_lookup_exact",
    "C19_interpolation_keeps_waypoints",
    "C19_interpolation_ends_at_last",
    "C19_straight_page_starts_at_origin",
    "C19_empty_motion_drops_waypoint_refuted",
    "C19_cache_starts_at_origin"
   ],
   "note": "Proved when each cached motion has at least one sample. C19_empty_motion_drops_waypoint_refuted: with an enumeration resolution so coarse that a motion has no sample, the way-point is dropped."
  },
  {
   "property": "C20",
   "status": "proved",
   "theorems": [
    "C20_samples_follow_the_segment",
    "C20_move_is_accepted_iff_samples_are_free",
    "C20_collision_map_marks_collisions",
    "C20_zero_expansion_is_defined_refuted",
    "C20_expansion_is_cyclic_refuted",
    "C20_planned_path_is_collision_checked",
    "C20_sent_angles_follow_the_found_path",
    "C20_direct_plan_is_checked_below_half_a_turn",
    "C20_direct_plan_is_checked_along_the_sent_way_refuted",
    "C20_target_of_a_move_is_checked_refuted",
    "C20_estimate_is_a_lower_bound_refuted",
    "C20_any_joint_angle_can_be_planned_from_refuted"
   ],
   "note": "Sampling and costs in IEEE binary32; sent angles in exact arithmetic in units of one cell. Findings (refuted): a direct plan to a goal more than half a turn away is checked the other way round than it is sent; the expansion of obstacles does not go around the map end; zero expansion is undefined behaviour; the target cell of a single move is not checked by the move (the planner checks the goal itself); the cost estimate is not a lower bound across the map end; joint angles of a full turn or more read outside the map."
  },
  {
   "property": "C21",
   "status": "proved",
   "theorems": [
    "C21_merge_is_the_bounding_box",
    "C21_merge_stamp",
    "C21_normalize_is_the_part_inside",
    "C21_expand",
    "C21_bitblt_copies_the_region",
    "C21_merge_keeps_newest_stamp_refuted"
   ],
   "note": "Finding C21_merge_keeps_newest_stamp_refuted: merging a region into an empty region that carries a newer time stamp loses that stamp."
  },
  {
   "property": "C22",
   "status": "proved",
   "theorems": [
    "C22_costmap_cells_do_not_alias",
    "C22_costmap_write",
    "C22_template_cells_do_not_alias",
    "C22_template_reset_is_zero",
    "C22_template_out_of_range_is_rejected_refuted"
   ],
   "note": "Finding C22_template_out_of_range_is_rejected_refuted: the template's own bound check accepts some out-of-range cells that alias others."
  },
  {
   "property": "C23",
   "status": "proved",
   "theorems": [
    "C23_inflation_covers_footprint_other_resolution",
    "C23_inflation_covers_footprint_same_resolution",
    "C23_slender_footprint_is_covered_refuted",
    "C23_poses_beyond_the_message_are_covered_refuted",
    "C23_obstacles_outside_the_map_are_covered_refuted",
    "C23_base_map_is_the_inflated_map"
   ],
   "note": "The unrestricted claim is refuted in three ways (theorems *_refuted): slender diagonal footprints with equal resolution lose cells to the neighbour mask, poses beyond the border of the message are not inflated, obstacles just outside the costmap are not drawn."
  },
  {
   "property": "C24",
   "status": "proved",
   "theorems": [
    "C24_inflation_writes_nothing_spurious"
   ],
   "note": "Includes absence of out-of-bounds accesses (the model returns Ok)."
  },
  {
   "property": "C25",
   "status": "proved",
   "theorems": [
    "C25_layers_show_their_latest_messages",
    "C25_updated_cells_do_not_depend_on_history",
    "C25_a_base_map_refreshes_every_layer",
    "C25_whole_map_does_not_depend_on_history_refuted",
    "C25_no_ghosts_with_one_inflated_layer_refuted"
   ],
   "note": "The claim for cells outside the update area is false: C25_whole_map_does_not_depend_on_history_refuted (two overlay layers, an obstacle that moved away stays in the combined map) and C25_no_ghosts_with_one_inflated_layer_refuted (inflation beyond the message's area is never cleared)."
  },
  {
   "property": "C26",
   "status": "proved",
   "theorems": [
    "C26_update_message_equals_the_map",
    "C26_client_copy_equals_the_nodes_map",
    "C26_messages_outside_the_map_are_followed_refuted",
    "C26_inflation_beyond_the_message_is_sent_refuted"
   ],
   "note": "Both side conditions are needed: C26_messages_outside_the_map_are_followed_refuted (an overlay outside the map clears cells in the node but publishes an empty message), C26_inflation_beyond_the_message_is_sent_refuted (inflation outside the message's area is not sent). confined_small (LayersSync.v) shows the second condition for templates of radius at most one cell."
  },
  {
   "property": "C27",
   "status": "proved",
   "theorems": [
    "C27_overlays_before_the_base_map_are_processed_in_order",
    "C27_empty_base_map_is_harmless_refuted"
   ],
   "note": "For non-empty base maps. Finding C27_empty_base_map_is_harmless_refuted: an empty base map with buffered overlays appends to the list being iterated (undefined behaviour)."
  },
  {
   "property": "C28",
   "status": "proved",
   "theorems": [
    "C28_unknown_cells_are_replaced_in_the_area_only",
    "C28_layers_in_a_node"
   ],
   "note": ""
  },
  {
   "property": "C29",
   "status": "partial",
   "theorems": [
    "C29_recent_clouds_are_kept",
    "C29_push_expires_exactly_partial",
    "C29_push_removes_every_second_expired_cloud",
    "C29_expired_clouds_are_removed_refuted",
    "C29_push_is_defined_refuted"
   ],
   "note": "Recent clouds are kept in order; expiry is exact only when at most one held cloud expires per push. Refuted: of two consecutive expired clouds the second stays; pushing when the only held cloud has expired increments end() (undefined)."
  },
  {
   "property": "C30",
   "status": "proved",
   "theorems": [
    "C30_cells_show_their_points",
    "C30_cells_contain_their_points",
    "C30_level_scans_are_drawn_like_clouds",
    "C30_window_is_centred",
    "C30_points_outside_mark_nothing_refuted",
    "C30_scan_heights_are_tested_per_point_refuted",
    "C30_drawing_is_defined_refuted"
   ],
   "note": "Exact arithmetic; points whose cell index does not fit in an int excluded. Findings (refuted): points just outside the lower/left edge mark cells; laserscan_to_map tests the height of the first point of a scan for all its points; far points overflow the int conversion."
  },
  {
   "property": "C31",
   "status": "proved",
   "theorems": [
    "C31_window_shows_the_large_map",
    "C31_aligned_window_is_exact",
    "C31_occlusion_only_hides",
    "C31_local_map"
   ],
   "note": "Occlusion proved for every table of addresses inside the map; the construction of that table is not modelled."
  },
  {
   "property": "C32",
   "status": "proved",
   "theorems": [
    "C32_any_start_vertex",
    "C32_any_orientation",
    "C32_translation",
    "C32_rectangle_is_exact",
    "C32_inside_points_are_within_the_hull",
    "C32_convex_polygon_is_exact",
    "C32_rotation_invariance_refuted"
   ],
   "note": "Exact real arithmetic. Also refuted: invariance under rotation, for points on the boundary."
  },
  {
   "property": "C33",
   "status": "proved",
   "theorems": [
    "C33_no_component_is_amplified",
    "C33_linear_speed_within_maximum",
    "C33_nan_is_stopped_refuted",
    "C33_infinite_request_is_stopped_refuted",
    "C33_predicted_ratio_is_nonnegative"
   ],
   "note": "Restricted to finite requests: NaN and infinite requests are passed or turned into NaN (C33_nan_is_stopped_refuted, C33_infinite_request_is_stopped_refuted). linear.z, angular.x/y are not touched by the node. The speed bound assumes an accurate hypot; a reference hypot is proved accurate."
  },
  {
   "property": "C34",
   "status": "proved",
   "theorems": [
    "C34_stops_without_cloud_or_watchdog",
    "C34_stop_is_published_at_once",
    "C34_never_disabled",
    "C34_requires_explicit_disable_refuted"
   ],
   "note": "Finding: with a clock that starts at 0 (simulated time) the node is disabled at start without a request (C34_requires_explicit_disable_refuted)."
  },
  {
   "property": "C35",
   "status": "proved",
   "theorems": [
    "C35_limit_is_held",
    "C35_held_across_reconfiguration_refuted"
   ],
   "note": "Finding: a dynamic reconfiguration drops the hold (C35_held_across_reconfiguration_refuted)."
  },
  {
   "property": "C36",
   "status": "proved",
   "theorems": [
    "C36_brakes_before_collision",
    "C36_limit_is_tight",
    "C36_blind_robot_stops",
    "C36_horizon_covers_stopping",
    "C36_free_motion_is_not_limited",
    "C36_faster_than_configured_refuted",
    "C36_newer_command_refuted"
   ],
   "note": "Exact arithmetic. Findings: not for a command newer than the one predicted (C36_newer_command_refuted) nor faster than configured (C36_faster_than_configured_refuted)."
  },
  {
   "property": "C37",
   "status": "proved",
   "theorems": [
    "C37_output_is_finite",
    "C37_change_is_bounded",
    "C37_velocity_limit_is_kept",
    "C37_target_in_reach_is_set",
    "C37_increment_is_limited",
    "C37_nan_target_stops",
    "C37_change_is_bounded_for_nan_refuted",
    "C37_negative_time_step_refuted"
   ],
   "note": "IEEE single precision. Findings: a NaN target resets the output to zero at once (C37_change_is_bounded_for_nan_refuted); a negative time step breaks the bound (C37_negative_time_step_refuted)."
  },
  {
   "property": "C38",
   "status": "proved",
   "theorems": [
    "C38_no_usable_path",
    "C38_not_localised",
    "C38_far_from_path",
    "C38_odometry_timeout",
    "C38_stop_status_comes_with_zero_command",
    "C38_every_cycle_publishes_a_command",
    "C38_commands_are_finite",
    "C38_lost_transform_stops_the_robot_refuted",
    "C38_far_while_turning_refuted"
   ],
   "note": "Findings: in timer mode a lost transform reports NO_PATH without a zero command (C38_lost_transform_stops_the_robot_refuted); the distance is not checked while turning in place (C38_far_while_turning_refuted). Measurements are inputs."
  },
  {
   "property": "C39",
   "status": "proved",
   "theorems": [
    "C39_import_lists_the_stops",
    "C39_keeps_start_and_final_heading",
    "C39_no_three_poses_at_one_place",
    "C39_spaced_message_is_unchanged",
    "C39_export_import_is_identity",
    "C39_keeps_every_long_step_refuted"
   ],
   "note": "The literal reading 'every pose farther than epsilon from its predecessor in the message is kept' is refuted (C39_keeps_every_long_step_refuted). Exact real arithmetic."
  },
  {
   "property": "C40",
   "status": "proved",
   "theorems": [
    "C40_local_goals_exact",
    "C40_every_turn_is_a_local_goal",
    "C40_every_switch_back_is_a_local_goal_refuted"
   ],
   "note": "The stronger claim that every switch-back is returned is refuted (C40_every_switch_back_is_a_local_goal_refuted): two reversals in a row give one local goal."
  },
  {
   "property": "C41",
   "status": "proved",
   "theorems": [
    "C41_recorded_path_is_spaced",
    "C41_every_addition_is_published",
    "C41_clear_is_served_refuted",
    "C41_saver_keeps_first_path"
   ],
   "note": "Exact arithmetic. Finding: a clear request is not served while the transform is unavailable (C41_clear_is_served_refuted)."
  },
  {
   "property": "C42",
   "status": "proved",
   "theorems": [
    "C42_priority",
    "C42_joystick_commands",
    "C42_released_command_is_fresh_refuted"
   ],
   "note": "Finding: the command re-issued at release may be arbitrarily old (C42_released_command_is_fresh_refuted)."
  },
  {
   "property": "C43",
   "status": "proved",
   "theorems": [
    "C43_forwards_exactly_the_selected_input",
    "C43_other_events_publish_nothing",
    "C43_joystick_input_is_recent"
   ],
   "note": ""
  },
  {
   "property": "C44",
   "status": "proved",
   "theorems": [
    "C44_healthy_after_any_history",
    "C44_measurement_never_increases_sigma",
    "C44_estimate_between",
    "C44_estimate_is_weighted_mean",
    "C44_measurement_informs",
    "C44_predictions_accumulate",
    "C44_first_measurement_taken",
    "C44_infinite_noise_ignored",
    "C44_sigma_is_posterior_deviation_refuted",
    "C44_zero_noise_poisons_filter_refuted"
   ],
   "note": "For zero noise the filter is poisoned: C44_zero_noise_poisons_filter_refuted (zero noise on a zero sigma gives NaN for ever). C44_sigma_is_posterior_deviation_refuted: the stored sigma is smaller than the deviation of the combined estimate."
  },
  {
   "property": "C45",
   "status": "proved",
   "theorems": [
    "C45_agreeing_sensors_reproduce_raw_xy",
    "C45_agreeing_sensors_reproduce_raw_xyz",
    "C45_outage_messages_are_transparent",
    "C45_unfiltered_slip",
    "C45_filtered_slip_has_the_sign_of_the_bias",
    "C45_slip_filter_stays_healthy",
    "C45_height_filter_contracts",
    "C45_long_gap_amplifies_height_refuted",
    "C45_zero_sigma_loses_position_refuted"
   ],
   "note": "Refuted beyond the stated conditions: after a gap longer than twice the time constant the height filter amplifies the height; with sigma_odom = 0 a standstill message loses the position."
  },
  {
   "property": "C46",
   "status": "proved",
   "theorems": [
    "C46_saved_map_reloads",
    "C46_trinary_map_is_identical",
    "C46_named_image_is_the_written_one_refuted",
    "C46_named_image_absolute",
    "C46_files_do_not_collide"
   ],
   "note": "Finding: a map name containing a directory makes the yaml file point to a wrong image path (C46_named_image_is_the_written_one_refuted). The reader is the map_server trinary format, stated as specification."
  },
  {
   "property": "C47",
   "status": "partial",
   "theorems": [
    "C47_map_and_offset_belong_together",
    "C47_last_valid_request_is_shown",
    "C47_new_array_is_shown_refuted"
   ],
   "note": "Proved for histories with one map array; for a second array with unchanged floor the claim is refuted (C47_new_array_is_shown_refuted). Map/offset consistency holds for every history."
  },
  {
   "property": "C48",
   "status": "proved",
   "theorems": [
    "C48_floor_map",
    "C48_area",
    "C48_candidates",
    "C48_largest_area",
    "C48_published",
    "C48_which_floors",
    "C48_occupied_has_obstacle",
    "C48_free_is_near_ground",
    "C48_runs_published_once",
    "C48_height_recovered_refuted",
    "C48_floor_dropped_refuted",
    "C48_obstacle_kept_refuted"
   ],
   "note": "Findings: merging frees an occupied cell of the lower floor when the floor one cell above is free there (C48_obstacle_kept_refuted); on the default 0.05 m grid int((43*grid)/grid) = 42, so the area of a floor at 2.15 m is looked up at another height and the floor is dropped (C48_floor_dropped_refuted)."
  },
  {
   "property": "C49",
   "status": "proved",
   "theorems": [
    "C49_lpf_converges",
    "C49_lpf_unit_gain",
    "C49_lpf_limit",
    "C49_hpf_removes_constant",
    "C49_lpf_no_overshoot",
    "C49_angle_takes_short_way",
    "C49_set_restarts"
   ],
   "note": ""
  },
  {
   "property": "C50",
   "status": "proved",
   "theorems": [
    "C50_node_starts_iff_level_supported",
    "C50_topic_names_are_uniform",
    "C50_deprecation_logged_iff_old"
   ],
   "note": ""
  },
  {
   "property": "C51",
   "status": "partial",
   "theorems": [
    "C51_escape_search_is_in_bounds_partial",
    "C51_far_border_reads_outside_the_map_refuted",
    "C51_far_border_reads_past_the_allocation_refuted",
    "C51_zero_search_range_reads_outside_the_map_refuted",
    "C51_escape_goal_is_reachable_and_best",
    "C51_plain_escape_goal_is_near_the_robot_refuted"
   ],
   "note": "In-bounds is characterised exactly (iff) for the crowd escape; it is false at the far borders (one column is read outside the map, past the allocation for block-aligned maps) and with a search range of zero. The plain escape mode searches around the map origin and not around the robot (refuted). Local reachability and heading are parameters of the model (the distance map is modelled separately, C11)."
  },
  {
   "property": "C52",
   "status": "proved",
   "theorems": [
    "C52_jump_reported_exactly",
    "C52_no_false_alarm"
   ],
   "note": ""
  },
  {
   "property": "C53",
   "status": "proved",
   "theorems": [
    "C53_arrival_times_are_monotone",
    "C53_length_is_polyline",
    "C53_travel_time_is_length_over_speed"
   ],
   "note": ""
  },
  {
   "property": "C54",
   "status": "partial",
   "theorems": [
    "C54_first_command_is_predicted_refuted",
    "C54_recovery_first_command_is_zero",
    "C54_recovery_waits_for_prediction_refuted"
   ],
   "note": "Refuted: after start the first command is passed unlimited before any prediction (C54_first_command_is_predicted_refuted), and after recovery too once one command was handled (C54_recovery_waits_for_prediction_refuted). Proved: the first command after a timeout recovery is zero."
  },
  {
   "property": "C55",
   "status": "proved",
   "theorems": [
    "C55_escape"
   ],
   "note": "Exact arithmetic."
  },
  {
   "property": "C56",
   "status": "proved",
   "theorems": [
    "C56_goal_is_reported_only_at_the_goal",
    "C56_new_path_starts_at_its_beginning",
    "C56_reached_local_goal_is_left_behind",
    "C56_actual_heading_is_checked_refuted"
   ],
   "note": "Finding: while turning, the heading without the prediction offset is not checked (C56_actual_heading_is_checked_refuted)."
  },
  {
   "property": "C57",
   "status": "proved",
   "theorems": [
    "C57_acceleration_is_limited",
    "C57_turning_only_slows_down",
    "C57_following_command",
    "C57_single_step_refuted"
   ],
   "note": "The single-step bound is refuted when limit_vel_by_avel is on (C57_single_step_refuted)."
  },
  {
   "property": "C58",
   "status": "proved",
   "theorems": [
    "C58_distance_to_an_edge_is_the_least_distance",
    "C58_template_range_suffices",
    "C58_template_cost_follows_the_distance"
   ],
   "note": "Exact real arithmetic. Within resolution/100 beyond the spread the cost is the minimum cost or 0."
  },
  {
   "property": "C59",
   "status": "proved",
   "theorems": [
    "C59_nearest_strip",
    "C59_degenerate_ranges",
    "C59_error_is_bounded_refuted",
    "C59_ties_go_to_the_earlier_strip_refuted"
   ],
   "note": "Findings: the eps that should only break ties accumulates (C59_error_is_bounded_refuted), ties at a corner go to the later strip (C59_ties_go_to_the_earlier_strip_refuted)."
  },
  {
   "property": "C60",
   "status": "proved",
   "theorems": [
    "C60_remaining_is_length_ahead",
    "C60_overshoot_is_negative",
    "C60_single_pose"
   ],
   "note": ""
  },
  {
   "property": "C61",
   "status": "proved",
   "theorems": [
    "C61_circle",
    "C61_straight",
    "C61_two_pose_arc",
    "C61_mean_within_range"
   ],
   "note": ""
  },
  {
   "property": "C62",
   "status": "proved",
   "theorems": [
    "C62_preserved_path_is_a_free_stretch_of_the_previous_path",
    "C62_no_result_only_if_far_or_blocked",
    "C62_far_robot_keeps_nothing",
    "C62_defined_on_paths_inside_the_map",
    "C62_start_is_free_refuted",
    "C62_start_is_a_cell_centre_refuted"
   ],
   "note": "In exact real arithmetic (the code uses double and float). Findings: the start pose is not collision checked (C62_start_is_free_refuted) and at the end of the path need not be a cell centre (C62_start_is_a_cell_centre_refuted); a previous path outside a new map is read out of bounds (C62_path_outside_the_map)."
  },
  {
   "property": "C63",
   "status": "proved",
   "theorems": [
    "C63_finishing_check",
    "C63_finishing_check_on_odd_angles_refuted",
    "C63_start_poses",
    "C63_free_own_cell_is_a_start",
    "C63_starts_are_free",
    "C63_defined",
    "C63_occupied_start_is_occupied_refuted"
   ],
   "note": "In exact real arithmetic. Findings: with an odd number of orientations and a tolerance of half of it one extreme difference is missed (C63_finishing_check_on_odd_angles_refuted; the main theorem excludes this case); a free robot cell is reported as occupied when the previous path cannot be continued (C63_occupied_start_is_occupied_refuted)."
  },
  {
   "property": "C64",
   "status": "proved",
   "theorems": [
    "C64_values_follow_the_last_plan",
    "C64_levels_are_bounded",
    "C64_without_a_plan_all_cells_are_equal",
    "C64_new_goal_or_map_forgets_the_plan",
    "C64_obstacle_on_the_path_drops_the_map",
    "C64_other_obstacles_keep_the_map"
   ],
   "note": "In exact real arithmetic for distances; the float computation of the code is not modelled. hysteresis_max_dist = 0 (division by zero) is excluded."
  },
  {
   "property": "C65",
   "status": "proved",
   "theorems": [
    "C65_moves_are_the_drivable_ones",
    "C65_curves_follow_an_arc",
    "C65_straight_moves_keep_the_direction",
    "C65_same_moves_after_a_quarter_turn",
    "C65_same_moves_in_the_mirror"
   ],
   "note": "In exact real arithmetic, with the angular resolution dividing the full turn; the symmetry theorems hold for exact arithmetic only (float rounding may break ties at the limits)."
  },
  {
   "property": "C66",
   "status": "proved",
   "theorems": [
    "C66_joint_limits_hold",
    "C66_new_commands_take_the_requested_time",
    "C66_replans_keep_the_velocity",
    "C66_published_trajectories_end_at_the_last_command",
    "C66_no_undefined_behaviour",
    "C66_replans_wait_for_the_interval",
    "C66_first_command_of_zeros_refuted",
    "C66_command_for_the_current_angles_refuted",
    "C66_reordered_command_refuted"
   ],
   "note": "In exact arithmetic; the search is a parameter (its path: Joint2D, C20). Findings: C66_first_command_of_zeros_refuted, C66_command_for_the_current_angles_refuted, C66_reordered_command_refuted."
  },
  {
   "property": "C67",
   "status": "proved",
   "theorems": [
    "C67_search_radius_covers_the_footprint",
    "C67_a_pose_collides_iff_a_point_is_in_the_footprint",
    "C67_straight_drive_stops_before_the_obstacle",
    "C67_any_motion_stops_before_the_obstacle",
    "C67_long_steps_jump_over_the_obstacle_refuted",
    "C67_nothing_in_the_height_range"
   ],
   "note": "In exact arithmetic, after downsampling (PCL's VoxelGrid is an arbitrary function). Finding: steps longer than the robot jump over obstacles (C67_long_steps_jump_over_the_obstacle_refuted)."
  },
  {
   "property": "C68",
   "status": "proved",
   "theorems": [
    "C68_prediction_tests_the_clouds_since_the_last_one",
    "C68_nothing_is_tested_without_a_cloud",
    "C68_a_timeout_forgets_the_clouds",
    "C68_nothing_is_tested_without_a_transform",
    "C68_a_second_prediction_sees_the_same_points_refuted",
    "C68_points_are_transformed_again"
   ],
   "note": "Finding: predictions faster than the clouds see the obstacles displaced (C68_a_second_prediction_sees_the_same_points_refuted, C68_points_are_transformed_again)."
  },
  {
   "property": "C69",
   "status": "proved",
   "theorems": [
    "C69_markers_match_the_path",
    "C69_feedback_edits_its_pose",
    "C69_requested_file_is_published",
    "C69_missing_file_clears_the_path",
    "C69_feedback_after_a_missing_file_refuted",
    "C69_smoothing_an_empty_path_refuted",
    "C69_smoothed_path_stays_in_the_box",
    "C69_small_steps_overshoot_refuted"
   ],
   "note": "Findings: a request for a missing file empties the path but keeps the markers, whose feedback is then undefined (C69_feedback_after_a_missing_file_refuted); smoothing a file without poses is undefined (C69_smoothing_an_empty_path_refuted); steps below 1/2 overshoot (C69_small_steps_overshoot_refuted)."
  },
  {
   "property": "C70",
   "status": "proved",
   "theorems": [
    "C70_obstacles_hide_what_is_behind_them",
    "C70_obstacles_hide_all_they_cover",
    "C70_near_cells_are_never_hidden",
    "C70_exact_shadows",
    "C70_free_sight_is_shown",
    "C70_covered_cells_are_unknown",
    "C70_local_map",
    "C70_only_shown_obstacles_hide_refuted",
    "C70_order_of_addresses_matters"
   ],
   "note": "In exact real arithmetic. Finding: an obstacle that is itself hidden still hides other cells if its address is smaller than the one of the obstacle in front of it (C70_only_shown_obstacles_hide_refuted, C70_order_of_addresses_matters)."
  },
  {
   "property": "C71",
   "status": "proved",
   "theorems": [
    "C71_status_tells_the_outcome",
    "C71_gives_up_beyond_the_limit",
    "C71_no_abort_within_the_limit",
    "C71_blocked_tries_are_counted",
    "C71_goals_outside_of_the_map_are_aborted",
    "C71_missing_robot_pose_is_reported_refuted"
   ],
   "note": "Findings: without a robot pose nothing is planned but the status stays DOING, GOING_WELL (C71_missing_robot_pose_is_reported_refuted); the cycle that gives up publishes no status (C71_gives_up_beyond_the_limit)."
  },
  {
   "property": "C72",
   "status": "proved",
   "theorems": [
    "C72_origin_is_the_nearest_point_of_the_surface",
    "C72_aligned_origin",
    "C72_align_is_idle_when_upright",
    "C72_result_is_rigid",
    "C72_projected_posture",
    "C72_kept_posture",
    "C72_flat",
    "C72_projecting_twice",
    "C72_stamp",
    "C72_align_projects_to_the_nearest_point_refuted"
   ],
   "note": "In exact real arithmetic, rotations as matrices; what getYaw gives for a vertical x axis is a parameter. Finding: with align_all_posture_to_source the origin is moved although the source stands on the surface (C72_align_projects_to_the_nearest_point_refuted)."
  },
  {
   "property": "C73",
   "status": "proved",
   "theorems": [
    "C73_names",
    "C73_cloud",
    "C73_no_cloud",
    "C73_defined",
    "C73_rounding_is_fair",
    "C73_density_is_even",
    "C73_points_use_their_own_draws",
    "C73_faces_use_their_own_draws"
   ],
   "note": "In exact real arithmetic, up to the cloud that is handed to pcl::VoxelGrid."
  },
  {
   "property": "C74",
   "status": "proved",
   "theorems": [
    "C74_plan_is_a_cheapest_way",
    "C74_the_answer_is_right",
    "C74_plan_poses_lie_in_free_cells",
    "C74_plan_ends_with_the_orientation_asked_for_refuted",
    "C74_start_at_the_goal_gets_a_plan_refuted",
    "C74_reachable_free_cell_within_tolerance_gets_a_plan_refuted"
   ],
   "note": "In exact real arithmetic. Findings proved beside it: the orientation asked for is ignored, a request whose start and goal share a cell fails, and relocation may pick an orientation the search cannot reach."
  },
  {
   "property": "C75",
   "status": "proved",
   "theorems": [
    "C75_each_report_is_of_one_cycle_of_the_command_in_force",
    "C75_set_pose_is_reported_and_kept",
    "C75_unknown_frame_changes_nothing",
    "C75_heading_is_the_sum_of_the_reported_turns",
    "C75_position_is_the_sum_of_the_reported_moves",
    "C75_never_further_than_the_reported_speeds",
    "C75_speed_limit_is_kept",
    "C75_close_to_an_ideal_robot",
    "C75_robot_stops_when_the_commands_stop_refuted"
   ],
   "note": "In exact real arithmetic. Finding proved beside it: the last command stays in force for ever."
  },
  {
   "property": "C76",
   "status": "proved",
   "theorems": [
    "C76_all_maps_are_published",
    "C76_a_bad_file_ends_the_node",
    "C76_array_is_complete",
    "C76_missing_entry_is_reported_refuted",
    "C76_unreadable_entry_is_reported_refuted",
    "C76_missing_file_is_reported"
   ],
   "note": "The image loader of map_server is an arbitrary function. Finding proved beside it: a missing (with yaml-cpp >= 0.5 also an unreadable) entry is not reported by the orderly shutdown written for it but terminates the process by an uncaught exception."
  },
  {
   "property": "C77",
   "status": "partial",
   "theorems": [
    "C77_callback_moves_the_whole_pose_partial",
    "C77_callback_keeps_distances_partial",
    "C77_callback_answers_in_order_partial",
    "C77_callback_answers_each_pose_partial",
    "C77_covariance_follows_the_frame_refuted",
    "C77_program_publishes_transformed_poses_refuted"
   ],
   "note": "The callback is proved to move the whole pose, to keep distances and to answer each pose that can be transformed, once and in order, with its covariance as sent. The claim itself is false of the program: main declares a function instead of constructing the node (PoseTransformNode ptn();), so nothing is ever published (C77_program_publishes_transformed_poses_refuted); the covariance is copied without being rotated (C77_covariance_follows_the_frame_refuted)."
  },
  {
   "property": "C78",
   "status": "proved",
   "theorems": [
    "C78_switchback_is_the_first_reversal",
    "C78_plans_exactly_for_a_reason",
    "C78_never_late",
    "C78_waits_only_for_a_reversal",
    "C78_what_it_waits_for",
    "C78_wait_ends_with_the_goal_refuted",
    "C78_path_of_another_map_is_safe_refuted"
   ],
   "note": "Proved for a last path that lies in the current map; that it may not is a finding (C78_path_of_another_map_is_safe_refuted). A second finding: the long wait is not ended with the goal it was made for (C78_wait_ends_with_the_goal_refuted). Times and poses are real numbers; trigger_plan_by_costmap_update is off."
  },
  {
   "property": "C79",
   "status": "proved",
   "theorems": [
    "C79_test_is_exact_for_the_ends",
    "C79_searched_motion_keeps_clear",
    "C79_direct_motion_keeps_clear",
    "C79_links_do_not_cross_refuted",
    "C79_any_gain_is_checked_refuted"
   ],
   "note": "Geometry in exact reals; the sampling of the moves in binary32 as in C20. The found path is what C06 proves of the search. Findings proved beside it: the sides of the links are not tested, crossing links count as free (C79_links_do_not_cross_refuted); with a gain that is not whole the moves are tested at other configurations than those driven (C79_any_gain_is_checked_refuted)."
  },
  {
   "property": "C80",
   "status": "proved",
   "theorems": [
    "C80_planning_is_defined",
    "C80_refused_exactly_if_there_is_no_way",
    "C80_sent_plan_keeps_clear",
    "C80_refused_only_if_there_is_no_way_refuted"
   ],
   "note": "Costs and the search in IEEE binary32, composed of C06, C08, C20 and C79; geometry and sent angles exact. Premise: link coefficients at most 4000, so that estimates fit into an int. Finding: a search longer than replan_interval is cancelled and reported as an unreachable goal (C80_refused_only_if_there_is_no_way_refuted); direct plans over more than half a turn: C20."
  },
  {
   "property": "C81",
   "status": "proved",
   "theorems": [
    "C81_the_planner_answers",
    "C81_what_the_planner_answers",
    "C81_start_without_estimate_is_undefined",
    "C81_a_way_is_found",
    "C81_published_poses_are_free_refuted"
   ],
   "note": "makePlan composed of the start poses (C62, C63), relocation (C14), motion primitives (C65), motion cache (C09), costs (C09), search (C06, C08), interpolation (C11) and grid conversion (C18), in exact arithmetic. Premise of definedness: every start has an estimate that fits an int; without it the cycle is undefined (C81_start_without_estimate_is_undefined, with an example on a map without obstacles). A path that continues a previous one may consist of a single pose in an obstacle (C81_published_poses_are_free_refuted); the theorem excludes exactly that case."
  },
  {
   "property": "C82",
   "status": "proved",
   "theorems": [
    "C82_rough_cost_is_not_above",
    "C82_overwritten_cost_is_not_below_refuted",
    "C82_cost_of_an_absent_heading_refuted",
    "C82_unreachable_means_no_way",
    "C82_nothing_to_plan_from_the_starts",
    "C82_enclosed_robot_gets_no_path",
    "C82_moved_start_refuted"
   ],
   "note": "C81's makePlan with C10's distance map: every motion's cells, sampled every tenth of a cell, form a chain of neighbouring cells (MotionChain.v), which is a route of the distance map. Samples of curves are assumed within a quarter cell of the exact curve. Restated after findings: if the start was relocated, the report can be wrong (C82_moved_start_refuted); with overwrite_cost or updates of some headings the 2D costmap can be above the costs (C82_overwritten_cost_is_not_below_refuted, C82_cost_of_an_absent_heading_refuted)."
  },
  {
   "property": "C83",
   "status": "proved",
   "theorems": [
    "C83_planned_paths_keep_clear",
    "C83_round_robots_keep_their_distance",
    "C83_unknown_cells_keep_clear_refuted"
   ],
   "note": "C58 (template), C23 (inflation), C13 (the planner's copy of the costs) and C81 (makePlan) joined. Between the grid poses of a motion the claim is about the cells the motion passes; the first pose kept from a previous path is not covered. Finding: with unknown_cost below 100 a robot may be sent through an unknown cell next to an obstacle (C83_unknown_cells_keep_clear_refuted). Slender footprints whose template does not lose cost with distance are excluded (C23)."
  },
  {
   "property": "C84",
   "status": "proved",
   "theorems": [
    "C84_the_last_configuration_and_map_count",
    "C84_like_a_new_planner",
    "C84_ranges_in_cells",
    "C84_costs_are_times",
    "C84_curves_in_a_larger_map_refuted",
    "C84_reads_inside_a_smaller_map_refuted"
   ],
   "note": "Restated after a finding: the search model, with the border in which curves are refused, is rebuilt only if the resolution or the search range changes, not if the size of the map does. In a larger map all curves outside the old map are refused (C84_curves_in_a_larger_map_refuted); in a smaller one curves are evaluated with cells outside the map (C84_reads_inside_a_smaller_map_refuted). Quotients are exact in the model."
  },
  {
   "property": "C85",
   "status": "proved",
   "theorems": [
    "C85_the_stack_is_as_configured",
    "C85_overlay_maps_reach_their_layer",
    "C85_configured_nodes_serve_all_messages",
    "C85_the_costmap_has_the_static_layers",
    "C85_mistakes_stop_the_node",
    "C85_missing_margins_are_refused_refuted",
    "C85_incomplete_footprints_are_refused_refuted",
    "C85_single_layer_is_like_the_root_refuted",
    "C85_documented_output_layer_refuted",
    "C85_unknown_cost_is_kept_refuted"
   ],
   "note": "The accessors of XmlRpcValue (a dependency) are modelled after their published behaviour. Findings: margins left out or misspelt are taken as 0 (C85_missing_margins_are_refused_refuted), so are missing coordinates of the footprint (C85_incomplete_footprints_are_refused_refuted); in single layer mode the overlay ignores linear_spread_min_cost (C85_single_layer_is_like_the_root_refuted); the documented class Costmap3dLayerOutput is not registered (C85_documented_output_layer_refuted); unknown_cost wraps around (C85_unknown_cost_is_kept_refuted). Conversion of doubles to float is not modelled."
  },
  {
   "property": "C86",
   "status": "proved",
   "theorems": [
    "C86_free_poses_keep_clear_of_sensed_obstacles",
    "C86_planned_paths_keep_clear_of_sensed_obstacles",
    "C86_obstacles_of_lower_layers_stay_in_the_plan_refuted"
   ],
   "note": "Chains C23, C25/C26 (layers), C13 (the planner's copy) and C81 (makePlan). The conclusion is about the latest message of a layer at or above the one just updated. Finding: for a layer below it fails (C86_obstacles_of_lower_layers_stay_in_the_plan_refuted): with two sensor layers the obstacles of the lower one vanish from the planner while the upper one is updated twice."
  },
  {
   "property": "C87",
   "status": "proved",
   "theorems": [
    "C87_consulted_distances_are_up_to_date",
    "C87_an_update_repairs_the_distances",
    "C87_the_goal_is_the_one_asked_for",
    "C87_up_to_date_distances_are_route_costs",
    "C87_example_days_are_up_to_date",
    "C87_example_distances_are_route_costs",
    "C87_reconfiguration_while_moving_refuted",
    "C87_map_while_the_pose_is_lost_refuted",
    "C87_update_while_the_pose_is_lost_refuted",
    "C87_closing_update_while_the_pose_is_lost_refuted",
    "C87_goal_while_the_pose_is_lost_refuted",
    "C87_forgetting_while_moving_refuted"
   ],
   "note": "With the two exceptions in the statement, both of which are findings: without them the claim is refuted in six ways (C87_*_refuted), e.g. a goal sent while the pose is unknown is planned with the distances of the goal before. fast_map_update (off by default) patches the map instead, see C11."
  },
  {
   "property": "C88",
   "status": "proved",
   "theorems": [
    "C88_status_tells_what_happens_to_the_next_command",
    "C88_status_fields",
    "C88_summaries",
    "C88_stuck_since",
    "C88_stuck_is_cleared_with_the_obstacles_refuted",
    "C88_stuck_survives_a_timeout_refuted"
   ],
   "note": "Finding: predictions that return early (empty cloud, no transformation, no point in the height range) and time-outs leave the stuck time as it was, so the status may say since when the robot is stuck although nothing is there any more (C88_*_refuted); the statement therefore speaks of predictions that test the position. The updater's own timer, which publishes the status at other moments too, is left out."
  },
  {
   "property": "C89",
   "status": "proved",
   "theorems": [
    "C89_reads_only_the_path",
    "C89_goal_is_the_end_of_the_path",
    "C89_reported_distance_is_the_way_ahead",
    "C89_kept_poses",
    "C89_imported_paths_are_suitable",
    "C89_reads_only_the_path_after_reconfiguration_refuted",
    "C89_standing_at_the_end_is_the_goal_refuted",
    "C89_goal_at_the_end_of_any_path_refuted",
    "C89_goal_is_near_the_last_pose_refuted",
    "C89_goal_at_the_last_pose_with_path_step_refuted",
    "C89_goal_at_the_measured_pose_refuted"
   ],
   "note": "Findings, each with a C89_*_refuted theorem: with poses more than 1 m apart the robot can stand on the last pose and be told that 4 m are left, and GOAL can be reported a stretch too early (behind a turn, or a pose given twice); the distance beside the path does not count at its end; with path_step above 1 the last pose may be dropped; the check without odometry prediction extrapolates a second time instead of none; changing path_step while a path is followed reads beyond the path. Coordinates are exact reals."
  },
  {
   "property": "C90",
   "status": "proved",
   "theorems": [
    "C90_brakes_in_time",
    "C90_speed_is_braked",
    "C90_does_not_back_off",
    "C90_arrives",
    "C90_never_passes_the_stop_refuted"
   ],
   "note": "Exact reals, an ideal robot on a straight stretch with the right heading. Finding: the stop can be passed, by as much as V*D/2 (C90_never_passes_the_stop_refuted), because the command does not account for the length of a cycle."
  },
  {
   "property": "C91",
   "status": "proved",
   "theorems": [
    "C91_turn_stops_in_time",
    "C91_rate_is_braked",
    "C91_arrives",
    "C91_never_turns_too_far_refuted"
   ],
   "note": "Exact reals, an ideal robot; the control without use_time_optimal_control is not covered. Finding: the wanted heading can be passed by V*D/2 even with the look-ahead gain (C91_never_turns_too_far_refuted), because a command given at rest looks no cycle ahead."
  },
  {
   "property": "C92",
   "status": "proved",
   "theorems": [
    "C92_does_not_run_into_obstacles",
    "C92_obstacles_ahead_stay_ahead",
    "C92_not_on_the_way_either",
    "C92_late_predictions_refuted"
   ],
   "note": "Exact reals, forward motion, static obstacles all seen in every cloud without downsampling, limit held until the next prediction (C35). C92_late_predictions_refuted: the bound on the time between predictions is needed."
  }
 ]
}