# Formal model of at-wat/neonavigation

This file states the plan, the trusted base, what is and is not modelled, and, for each property of
`properties.jsonl`, how it is modelled and proved. Sources cited are under /repo.

## 1. How the development is organised

For a part `X` of the code:

* `X.v` is the model. Each definition cites the file and lines it models, and says where it simplifies.
* `XSpec.v` (when present) is the specification, written without the helpers of the model. In small
  modules the specification is at the top of `XProps.v`.
* `XProofs.v` holds auxiliary lemmas.
* `XProps.v` holds the property theorems, named `Cnn_...`, each with an `Example` showing that a concrete
  non-trivial case meets the hypotheses, and `Print Assumptions`.

Naming: a theorem ending in `_refuted` shows, by a run of the model, that a natural stronger reading of the
property is false of the code. These are the findings of section 5. A theorem ending in `_partial` covers a
part of its property only; the missing part is in its comment and in the manifest note.

Modelling conventions:

* Functions are total Gallina functions. Undefined behaviour of C++ (out-of-bounds access, `++end()`,
  division by zero, conversion of a value that does not fit) is an explicit outcome `UB`, so a theorem that
  concludes `Ok ...` also claims that there is no such behaviour.
* Nodes are state machines `init`/`step` over events; theorems quantify over all event lists.
* Nondeterminism (heap order of equal keys, OpenMP schedules, answers of tf, abort decisions) is an input of
  the model, and theorems quantify over it.
* Loops with a condition use fuel with an explicit out-of-fuel outcome; theorems show that enough fuel exists.
* Arithmetic: `int` and `size_t` computations are integers, with wrapping where the code can reach it
  (`wrap64`, `u32`, `i32`, `i8`). Floating point is IEEE 754 through Flocq where rounding matters to the
  property (limiter, velocity clipping, Bayes filter, joint costs, cost comparisons, grid conversion), and
  exact (reals or rationals) elsewhere; the comment at the definition says which.

## 2. Trusted base

* The Coq 8.16.1 kernel (and `vm_compute`, which is part of it, used for the concrete examples).
* The definitions of the models: that they agree with the C++ text was checked by reading only. Nothing was
  compiled or run.
* The statement files, i.e. that the theorems say what the English properties say.
* Flocq 4.1.0 definitions of IEEE arithmetic (definitions and lemmas; Flocq adds no axioms of its own).
* Axioms, all from the Coq standard library, listed by `Print Assumptions`. Each theorem below carries a code:

| code | axiom |
|---|---|
| `-` | closed under the global context |
| `D` | `ClassicalDedekindReals.sig_forall_dec` |
| `N` | `ClassicalDedekindReals.sig_not_dec` |
| `F` | `FunctionalExtensionality.functional_extensionality_dep` |
| `C` | `Classical_Prop.classic` |

`D`, `N` and `F` come with `Reals`; `C` comes with Flocq's rounding lemmas. There are no other axioms, no
`Admitted`, no functors and no plugins.

## 3. What is modelled and what is not

| source | modelled | not modelled |
|---|---|---|
| planner_cspace/cyclic_vec.h | cycle, cycleUnsigned, isExceeded, vector operations used by the planner | template plumbing; len and norm outside Path/DistMap uses |
| planner_cspace/blockmem_gridmap.h | all of BlockMemGridmap | allocation failure |
| planner_cspace/grid_astar.h, reservable_priority_queue.h | search, findPath, batches, merge; the queue as any order consistent with the keys | real thread interleavings inside a batch (tasks are atomic); the progress callback's wall clock |
| planner_cspace/grid_astar_model_3dof.cpp, motion_cache.cpp | cost, costEstim, cost loops, cache pages, which motions are stored and max_range_ (MotionReset.v), interpolatePath; rotation_cache.cpp and motion_primitive_builder.cpp in exact arithmetic (Primitives.v) | the float samples of curves are inputs, at most half a cell off the exact curve where that matters; sorting of a motion's cells, distance_ of curves |
| planner_cspace/distance_map.cpp | init, create, update, fillCostmap | debug output |
| planner_cspace/costmap_bbf.cpp, bbf.h | all | - |
| planner_cspace/planner_3d.cpp | map and update callbacks, searchAvailablePos, goal and action life cycle, watchdog, temporary escape, start and goal relocation, start poses and finishing check, hysteresis map, make_plan service, a planning cycle end to end (makePlan with the cost formulas of GridAstarModel3D), waiting and timing of the planning, switch-backs, reconfiguration (derived ranges and the rebuilding of the search model) | message conversions, debug publications, path post-processing beyond interpolation, diagnostics text |
| planner_cspace/grid_metric_converter.h, jump_detector.h, patrol.cpp | all conversions and callbacks | tf |
| planner_cspace/planner_2dof_serial_joints.cpp, grid_astar_model_2dof_joints.cpp | collision test of the links, collision map, costs, makePlan path unwrapping, direct plan; joint states, commands, timing of the trajectories | tf, status messages |
| planner_cspace/start_pose_predictor.cpp | all, in exact arithmetic | preserved path as a message, logging |
| planner_cspace/dummy_robot.cpp | all, in exact arithmetic | tf (the pose in the odometry frame is given) |
| costmap_cspace | layer base class, all layers, update messages, node buffering, accumulator, polygon, template, point cloud and scan drawing, large map crop and occlusion, construction of the node from its parameters (lists of layers, class loader, footprints) | ros parameter server, debug publications |
| safety_limiter.cpp | callbacks, prediction, limiting, hold, watchdog, collision test of the predicted poses, accumulation of the clouds, closed loop with a robot driving straight (LimitedDrive.v) | VoxelGrid and kd-tree of PCL (arbitrary function, exact radius search), tf, diagnostics |
| trajectory_tracker | tracker control decision and its measurements on the path, the velocity commands in closed loop with an ideal robot (Braking.v), path2d.h, filter.h, basic_control.h, recorder, saver, path server | looks of the interactive markers, (de)serialisation, line geometry of eigen_line.h that path2d.h does not use |
| track_odometry | odometry fusion, Kalman filter, projection of frames | tf broadcasting; message_filters synchronisation |
| joystick_interrupt, neonavigation_common | all | - |
| obj_to_pointcloud | names, reading order, scaling, sampling of triangles | PCL's readers and VoxelGrid, publication |
| map_organizer | pointcloud_to_maps, save_maps, select_map, tie_maps, pose_transform | ROS plumbing; image loader of map_server and yaml-cpp (functions) |

Common to all: ROS transport, tf, actionlib and the parameter server are not modelled, only the values and
the order of events they deliver.

## 4. Plan, method and result per property

### C01 Cyclic coordinates are normalised to one canonical representative (proved)

* Modelled: cycleElement, cycleUnsignedElement, cycle, cycleUnsigned, isExceeded on integer components; C truncating division and remainder (Z.quot, Z.rem); resolution 0 is UB. Files: CyclicVec.v, CyclicVecProofs.v.
* Proof: Euclidean-division algebra against an independent specification (congruence and interval), induction over the component list.
* Theorems: `C01_signed_canonical` [-], `C01_unsigned_canonical` [-], `C01_total` [-], `C01_idempotent` [-], `C01_separates` [-], `C01_vector` [-], `C01_zero_resolution_refuted` [-], `C01_isExceeded_exact` [-]

### C02 Grid cells never alias (proved)

* Modelled: BlockMemGridmap: reset, block_addr (the bit shifting loop), buffer as a list; sizes and addresses wrap at 64 bits. Files: GridMap.v, GridMapProofs.v.
* Proof: Mixed-radix numerals: induction over the dimension list gives injectivity and the bound.
* Theorems: `C02_no_alias` [-]

### C03 A grid map behaves like a mathematical map under any history (proved)

* Modelled: reset, clear, clear_positive, write, clear_partially, copy_partially as a state machine over the concrete buffer. Files: GridMap.v, GridMapProofs.v.
* Proof: Refinement to a finite function, induction over the list of operations.
* Theorems: `C03_history` [-]

### C04 Partial copy and partial clear touch exactly the requested box (proved)

* Modelled: the nested loops of copy_partially and clear_partially as folds over enumerated boxes. Files: GridMap.v, GridMapProofs.v.
* Proof: Frame theorem of the folds (cell changed iff in the box).
* Theorems: `C04_box_exact` [-]

### C05 Map bounds check with tolerance is exact (proved)

* Modelled: validate with tolerance. Files: GridMap.v.
* Proof: Boolean reflection, then the neighbour statement by arithmetic.
* Theorems: `C05_validate_exact` [-], `C05_validate_neighbours` [-], `C05_validate_zero` [-]

### C06 A* only returns real paths (proved)

* Modelled: GridAstar::searchImpl and findPath: open list, g, parents, batches of search_task_num, per-task results and the merge; the heap order, the distribution of a batch over threads and the abort decision are oracle inputs. Costs are an abstract ordered algebra (CostAlg) with integer, real and IEEE binary32 instances. Files: AStar.v, AStarProofs.v, AStarProps.v.
* Proof: Invariant over all iterations and schedules: every parent link is an offered move with a finite cost, parents never form a cycle.
* Theorems: `C06_success_returns_a_real_path` [-], `C06_path_ends_at_goal` [-], `C06_partial_result_is_a_real_path` [-], `C06_no_undefined_behaviour` [-], `C06_float32_success_returns_a_real_path` [CDFN], `C06_float32_path_ends_at_goal` [CDFN], `C06_unreachable_start_heuristic_refuted` [CDFN]

### C07 A* is optimal with an admissible heuristic (partial)

* Modelled: same model, exact costs. Files: AStar.v, AStarOpt.v, AStarProps.v.
* Proof: Invariant "an optimal frontier node is open"; refutations by concrete runs of the model.
* Note: Proved for consistent heuristics, one task per batch and starts none of which is cheaper to reach from another start (single start: no such condition). The full statement is false of the code: refuted for admissible but inconsistent heuristics, for unbalanced start costs and for batches of more than one task.
* Theorems: `C07_optimal_partial` [-], `C07_optimal_single_start_partial` [-], `C07_batched_search_refuted` [-], `C07_inconsistent_heuristic_refuted` [-], `C07_unbalanced_starts_refuted` [-]

### C08 A* is complete (proved)

* Modelled: same model, queue limit, early leave and abort switched off. Files: AStar.v, AStarTerm.v, AStarComplete.v, AStarProps.v, AStarFloatProps.v.
* Proof: Well-founded measure (each settled cell improves only finitely often), reachability invariant over a set of costs below the sentinel and closed under moves; in binary32 the costs up to 2^127, by rounding to nearest.
* Note: Both for exact costs and for IEEE binary32. Without a bound on the costs the float claim is false: two moves of 2^127 sum to infinity (C08_float32_huge_costs_refuted).
* Theorems: `C08_float32_search_decides_reachability` [CDFN], `C08_float32_failure_means_unreachable` [CDFN], `C08_float32_huge_costs_refuted` [CDFN], `C08_search_terminates` [-], `C08_float32_search_terminates` [CDFN], `C08_failure_means_unreachable` [-], `C08_search_decides_reachability` [-]

### C09 Planned motions never cross an occupied cell (proved)

* Modelled: GridAstarModel3D::cost and the cost loops, the motion cache as it is filled and the published path. Files: Cost3D.v, Motion3D.v, MotionCache.v, MotionReset.v and their Proofs/Props.
* Proof: Every accepting branch has read every cell; composition with C06 for whole paths. The band at the border: concavity of the cosine bounds a spiral that turns less than a right angle by its chord; rounding of the samples; a fold over all straight motions.
* Note: The motion cache is modelled too (MotionReset.v): curves that can be driven stay within the length of their displacement, so the cache meets the premise of the theorems for the moves the planner tries (C09_cache_is_fit_for_the_moves, C09_planner_with_its_own_cache). Premises: float curve samples less than half a cell off, enumeration steps of at most half a cell, an even number of headings (or one close to parallel). A path of a single pose is covered by C06 and C63. Finding: max_range_ ignores the cells of curves.
* Theorems: `C09_accepted_motion_is_collision_free` [-], `C09_cost_reads_inside_the_map` [-], `C09_straight_motion_stays_in_box` [-], `C09_planned_path_sweeps_free_cells` [-], `C09_published_poses_lie_in_free_cells` [-], `C09_page_cells_cover_samples` [-], `C09_curves_stay_within_their_length` [CDFN], `C09_cache_is_fit_for_the_moves` [CDFN], `C09_cache_covers_its_poses` [DFN], `C09_planner_with_its_own_cache` [CDFN]

### C10 The goal distance map holds true shortest costs (proved)

* Modelled: DistanceMap::init, create, fillCostmap, with heap order and OpenMP schedule as oracle; generic costs. Files: DistMap.v, DistMapProofs.v, DistMapProps.v.
* Proof: Label-correcting search: soundness and completeness invariants, termination by a measure.
* Note: Costs are generic (integers, reals, binary32 instances). Values are counted from -0.5*euclid_cost at the goal, as in the code; the goal cell is 0 afterwards. Weighted costs are assumed non-negative.
* Theorems: `C10_fill_terminates` [-], `C10_values_are_shortest` [-], `C10_start_cell_is_exact` [-], `C10_unreachable_cells_keep_the_unreachable_value` [-], `C10_start_value_is_schedule_independent` [-], `C10_binary32_start_cell_is_exact` [CDFN]

### C11 Distance map state always refers to the current goal, and extending it loses nothing (partial)

* Modelled: DistanceMap::update, erase loop and re-fill. Files: DistMap.v, DistMapProofs.v, DistMapProps.v, DistExtendProps.v.
* Proof: Invariant over histories of create/update; extension: every reached cell is settled or remembered as an edge; refutations by concrete runs.
* Note: Proved: on one costmap, for every history of create/update calls with starts and goals inside the map, values are costs of routes from the last goal, a changed goal rebuilds the map, and every call completes; after any sequence of updates for other starts whose areas contain no reached cell, the start's value equals the one of a map built from scratch (also in binary32), and the other values are shortest up to the overshoot. Missing/refuted: a goal given while the start is outside the map is remembered without being computed, so the next update works on the old goal's values; after a costmap change an update keeps stale values in another connected part; even on an unchanged costmap an update whose area contains reached cells can leave values above the shortest cost.
* Theorems: `C11_extended_values_are_shortest` [-], `C11_extended_start_is_exact` [-], `C11_extension_agrees_with_a_rebuilt_map` [-], `C11_binary32_extension_agrees_with_a_rebuilt_map` [CDFN], `C11_values_belong_to_the_last_goal_partial` [-], `C11_a_new_goal_rebuilds_the_map` [-], `C11_calls_complete` [-], `C11_start_outside_the_map_refuted` [-], `C11_update_keeps_stale_values_refuted` [-], `C11_update_can_lose_the_shortest_cost_refuted` [-]

### C12 The remembered-obstacle costmap is consistent and bounded (proved)

* Modelled: CostmapBBF: observation, refresh, forget, clear; BinaryBayesFilter in IEEE float. Files: Bbf.v, BbfFloat.v.
* Proof: Invariant over histories for the incremental refresh; Flocq error-free bounds for the percentage.
* Note: The incremental refresh is proved equal to recomputing every cell (generic in the filter), cells are independent, and with the code's own float/double arithmetic (Flocq) every shown cost is in [0,100] for every history whose hit/miss odds are not NaN.
* Theorems: `C12_shown_cost_is_a_percentage` [CDFN], `C12_filter_value_moves_as_observed` [CDFN], `C12_shown_cost_is_the_cells_own_filter` [-], `C12_refresh_is_complete` [-], `C12_cells_are_independent` [-]

### C13 Dynamic costmap updates never leave residue (proved)

* Modelled: planner_3d: cbMap, cbMapUpdate/applyCostmapUpdate, the base, overlay and combined grids, pending update. Files: Overlay.v, OverlayProofs.v, OverlayProps.v.
* Proof: Invariant over histories.
* Note: Proved by invariant over arbitrary histories of maps and updates. Findings: the acceptance test ignores the yaw offset and lets position plus width wrap, so such updates are laid over outside the grids (two _refuted theorems).
* Theorems: `C13_costmap_is_static_plus_latest_update` [-], `C13_older_updates_leave_no_residue` [-], `C13_angular_window_is_not_checked_refuted` [-], `C13_wrapping_area_is_accepted_refuted` [-]

### C14 Relocated poses are free and nearest (proved)

* Modelled: searchAvailablePos with the retry, and the relocation of start and goal. Files: SearchAvail.v.
* Proof: Fold invariant (least so far), then minimality.
* Note: Proved for every costmap, pose, tolerance and ordered cost arithmetic, instantiated at binary32. Findings: the second attempt drops the minimum distance; relocation on the costs by cell (make_plan service) can change the orientation although the following search never does.
* Theorems: `C14_search_finds_a_nearest_pose` [-], `C14_relocation_is_free_and_nearest` [-], `C14_rough_relocation_is_free_and_nearest` [-], `C14_binary32_relocation_is_free_and_nearest` [CDFN], `C14_minimum_distance_is_kept_refuted` [-], `C14_rough_relocation_keeps_orientation_refuted` [-]

### C15 Goal lifecycle is reported consistently (proved)

* Modelled: the node state machine: goal, action servers (SimpleActionServer modelled from its documentation), waitUpdate/spin cycle, preemption, status. Files: Planner.v, PlannerProofs.v, PlannerLedger.v, PlannerProps.v.
* Proof: Invariant over events; ledger of goals and results by induction.
* Note: State machine of the node with arbitrary answers for map, poses and search; actionlib's SimpleActionServer is modelled from its documented behaviour. Findings proved as _refuted: a planner without a goal can be reported DOING for ever (goal cleared by an invalid orientation); a goal sent to one action while the other runs is never answered; giving up after max_retry_num is not reported on the status topic.
* Theorems: `C15_goal_state_is_consistent` [-], `C15_goals_are_answered_at_most_once` [-], `C15_only_valid_goals_become_active` [-], `C15_invalid_orientation_clears_the_goal` [-], `C15_success_is_earned` [-], `C15_no_goal_no_path` [-], `C15_no_goal_means_done_refuted` [-], `C15_goal_for_the_other_action_is_answered_refuted` [-], `C15_giving_up_is_reported_refuted` [-]

### C16 Stale sensor data stops the robot (proved)

* Modelled: costmap watchdog inside the planning cycle. Files: Planner.v.
* Proof: Case analysis for every reachable state.
* Note: Findings proved as _refuted: without a goal the report is GOING_WELL although the costmap is stale; with planning triggered by costmap updates, a refused update plans on the stale costmap.
* Theorems: `C16_stale_costmap_stops` [-], `C16_stale_costmap_gives_no_path` [-], `C16_stale_costmap_is_reported_without_goal_refuted` [-], `C16_refused_update_plans_on_stale_costmap_refuted` [-]

### C17 Patrol visits waypoints in order, once each (proved)

* Modelled: patrol node: cbPath, sendNextGoal, loop. Files: Patrol.v.
* Proof: Trace specification by induction over events.
* Note: A result other than succeeded/aborted (rejected, preempted, lost) stalls the patrol until a new path arrives; the exact characterisation includes this.
* Theorems: `C17_goals_in_order` [-], `C17_all_waypoints_sent` [-], `C17_new_path_cancels_running_patrol` [-], `C17_idle_without_path` [-]

### C18 Grid and metric coordinates round-trip (proved)

* Modelled: grid2Metric, metric2Grid for int and float; exact and IEEE roundings (r32, r64). Files: GridMetric.v.
* Proof: Real arithmetic; Flocq relative error bounds for the IEEE round trip.
* Theorems: `C18_round_trip` [DF], `C18_position_converts_to_its_cell` [DF], `C18_conversion_defined_iff` [DF], `C18_cell_is_found` [DF], `C18_path_position_stays_in_its_cell` [DF], `C18_float_positions_shift_half_a_cell` [DF], `C18_cells_are_disjoint` [DF], `C18_round_trip_ieee` [CDFN]

### C19 Motion lookup is periodic in yaw and path interpolation keeps the way-points (proved)

* Modelled: MotionCache::reset page construction, find, interpolatePath. Files: MotionCache.v.
* Proof: Index arithmetic modulo the number of angles; fold over the path.
* Note: Proved when each cached motion has at least one sample. C19_empty_motion_drops_waypoint_refuted: with an enumeration resolution so coarse that a motion has no sample, the way-point is dropped.
* Theorems: `C19_lookup_periodic` [-], `C19_lookup_exact` [-], `C19_interpolation_keeps_waypoints` [-], `C19_interpolation_ends_at_last` [-], `C19_straight_page_starts_at_origin` [-], `C19_empty_motion_drops_waypoint_refuted` [-], `C19_cache_starts_at_origin` [DFN]

### C20 Joint-space moves are collision-checked along the whole segment (proved)

* Modelled: planner_2dof_serial_joints: collision map, cost sampling in binary32, angle unwrapping of the sent path, direct plan. Files: Joint2D.v, Joint2DProofs.v.
* Proof: Flocq error bounds for the samples; induction over the path.
* Note: Sampling and costs in IEEE binary32; sent angles in exact arithmetic in units of one cell. Findings (refuted): a direct plan to a goal more than half a turn away is checked the other way round than it is sent; the expansion of obstacles does not go around the map end; zero expansion is undefined behaviour; the target cell of a single move is not checked by the move (the planner checks the goal itself); the cost estimate is not a lower bound across the map end; joint angles of a full turn or more read outside the map.
* Theorems: `C20_samples_follow_the_segment` [CDFN], `C20_move_is_accepted_iff_samples_are_free` [CDFN], `C20_collision_map_marks_collisions` [-], `C20_zero_expansion_is_defined_refuted` [-], `C20_expansion_is_cyclic_refuted` [-], `C20_planned_path_is_collision_checked` [CDFN], `C20_sent_angles_follow_the_found_path` [CDFN], `C20_direct_plan_is_checked_below_half_a_turn` [CDFN], `C20_direct_plan_is_checked_along_the_sent_way_refuted` [CDFN], `C20_target_of_a_move_is_checked_refuted` [CDFN], `C20_estimate_is_a_lower_bound_refuted` [CDFN], `C20_any_joint_angle_can_be_planned_from_refuted` [CDFN]

### C21 Costmap layer regions are exact boxes (proved)

* Modelled: UpdatedRegion: merge, expand, normalize, bitblt. Files: CSpace.v.
* Proof: Box arithmetic, frame theorem for bitblt.
* Note: Finding C21_merge_keeps_newest_stamp_refuted: merging a region into an empty region that carries a newer time stamp loses that stamp.
* Theorems: `C21_merge_is_the_bounding_box` [-], `C21_merge_stamp` [-], `C21_normalize_is_the_part_inside` [-], `C21_expand` [-], `C21_bitblt_copies_the_region` [-], `C21_merge_keeps_newest_stamp_refuted` [-]

### C22 Layered costmap cells are addressed without aliasing (proved)

* Modelled: CSpace3DMsg addressing, getCost, CSpace3Cache. Files: CSpace.v.
* Proof: Mixed-radix injectivity.
* Note: Finding C22_template_out_of_range_is_rejected_refuted: the template's own bound check accepts some out-of-range cells that alias others.
* Theorems: `C22_costmap_cells_do_not_alias` [-], `C22_costmap_write` [-], `C22_template_cells_do_not_alias` [-], `C22_template_reset_is_zero` [-], `C22_template_out_of_range_is_rejected_refuted` [-]

### C23 Obstacle inflation covers the footprint (proved)

* Modelled: Costmap3dLayerFootprint: generateCSpace with the neighbour mask; setBaseMap. Files: Inflate.v.
* Proof: Fold invariants; the masked neighbour is shown to draw the same cost for templates monotone along axes.
* Note: The unrestricted claim is refuted in three ways (theorems *_refuted): slender diagonal footprints with equal resolution lose cells to the neighbour mask, poses beyond the border of the message are not inflated, obstacles just outside the costmap are not drawn.
* Theorems: `C23_inflation_covers_footprint_other_resolution` [-], `C23_inflation_covers_footprint_same_resolution` [-], `C23_slender_footprint_is_covered_refuted` [-], `C23_poses_beyond_the_message_are_covered_refuted` [-], `C23_obstacles_outside_the_map_are_covered_refuted` [-], `C23_base_map_is_the_inflated_map` [-]

### C24 Inflation writes nothing spurious (proved)

* Modelled: same, plus clearTravelableArea and keep_unknown. Files: Inflate.v.
* Proof: Exact value of every cell after the fold.
* Note: Includes absence of out-of-bounds accesses (the model returns Ok).
* Theorems: `C24_inflation_writes_nothing_spurious` [-]

### C25 Overlay updates do not depend on history (proved)

* Modelled: layer chain: processMapOverlay, updateChainEntry, setBaseMap, all layer classes. Files: Layers.v.
* Proof: Invariant over node histories.
* Note: The claim for cells outside the update area is false: C25_whole_map_does_not_depend_on_history_refuted (two overlay layers, an obstacle that moved away stays in the combined map) and C25_no_ghosts_with_one_inflated_layer_refuted (inflation beyond the message's area is never cleared).
* Theorems: `C25_layers_show_their_latest_messages` [-], `C25_updated_cells_do_not_depend_on_history` [-], `C25_a_base_map_refreshes_every_layer` [-], `C25_whole_map_does_not_depend_on_history_refuted` [-], `C25_no_ghosts_with_one_inflated_layer_refuted` [-]

### C26 Applying costmap updates reproduces the node's costmap (proved)

* Modelled: generateUpdateMsg and a client that applies the messages. Files: Layers.v, LayersSync.v.
* Proof: Refinement: the client copy equals the node map after each event.
* Note: Both side conditions are needed: C26_messages_outside_the_map_are_followed_refuted (an overlay outside the map clears cells in the node but publishes an empty message), C26_inflation_beyond_the_message_is_sent_refuted (inflation outside the message's area is not sent). confined_small (LayersSync.v) shows the second condition for templates of radius at most one cell.
* Theorems: `C26_update_message_equals_the_map` [-], `C26_client_copy_equals_the_nodes_map` [-], `C26_messages_outside_the_map_are_followed_refuted` [-], `C26_inflation_beyond_the_message_is_sent_refuted` [-]

### C27 Overlays received before the base map are not lost (proved)

* Modelled: Costmap3DOFNode: buffering of overlays. Files: Layers.v.
* Proof: Equality of the two runs.
* Note: For non-empty base maps. Finding C27_empty_base_map_is_harmless_refuted: an empty base map with buffered overlays appends to the list being iterated (undefined behaviour).
* Theorems: `C27_overlays_before_the_base_map_are_processed_in_order` [-], `C27_empty_base_map_is_harmless_refuted` [-]

### C28 Unknown handling and propagation stop (proved)

* Modelled: unknown_handle and stop_propagation layers. Files: Layers.v.
* Proof: Fold frame theorem; composition inside a node.
* Theorems: `C28_unknown_cells_are_replaced_in_the_area_only` [-], `C28_layers_in_a_node` [-]

### C29 Accumulated point clouds expire (partial)

* Modelled: PointcloudAccumulator with std::list iterator semantics; ++end() is UB. Files: Accum.v.
* Proof: Induction over the list; refutations by runs.
* Note: Recent clouds are kept in order; expiry is exact only when at most one held cloud expires per push. Refuted: of two consecutive expired clouds the second stays; pushing when the only held cloud has expired increments end() (undefined).
* Theorems: `C29_recent_clouds_are_kept` [-], `C29_push_expires_exactly_partial` [-], `C29_push_removes_every_second_expired_cloud` [-], `C29_expired_clouds_are_removed_refuted` [-], `C29_push_is_defined_refuted` [-]

### C30 Sensor points land in the cell that contains them (proved)

* Modelled: pointcloud2_to_map and laserscan_to_map drawing. Files: Sensor.v.
* Proof: Rational arithmetic, truncation, fold.
* Note: Exact arithmetic; points whose cell index does not fit in an int excluded. Findings (refuted): points just outside the lower/left edge mark cells; laserscan_to_map tests the height of the first point of a scan for all its points; far points overflow the int conversion.
* Theorems: `C30_cells_show_their_points` [-], `C30_cells_contain_their_points` [-], `C30_level_scans_are_drawn_like_clouds` [-], `C30_window_is_centred` [-], `C30_points_outside_mark_nothing_refuted` [-], `C30_scan_heights_are_tested_per_point_refuted` [-], `C30_drawing_is_defined_refuted` [-]

### C31 The local window of a large map is exact (proved)

* Modelled: largemap_to_map crop and occlusion. Files: Sensor.v.
* Proof: Index arithmetic and folds.
* Note: Occlusion proved for every table of addresses inside the map; the construction of that table is not modelled.
* Theorems: `C31_window_shows_the_large_map` [-], `C31_aligned_window_is_exact` [-], `C31_occlusion_only_hides` [-], `C31_local_map` [-]

### C32 Point-in-polygon is well defined (proved)

* Modelled: Polygon::inside, also used by the safety limiter. Files: Polygon.v.
* Proof: Crossing counts; sum over edges; convexity argument.
* Note: Exact real arithmetic. Also refuted: invariance under rotation, for points on the boundary.
* Theorems: `C32_any_start_vertex` [DF], `C32_any_orientation` [DF], `C32_translation` [DF], `C32_rectangle_is_exact` [DF], `C32_inside_points_are_within_the_hull` [DF], `C32_convex_polygon_is_exact` [DF], `C32_rotation_invariance_refuted` [DF]

### C33 The limiter never amplifies a command (proved)

* Modelled: limit, limitMaxVelocities and the callbacks, IEEE binary64. Files: SafetyLimiter.v.
* Proof: Flocq: sign and magnitude of rounded products, invariant on the stored ratio.
* Note: Restricted to finite requests: NaN and infinite requests are passed or turned into NaN (C33_nan_is_stopped_refuted, C33_infinite_request_is_stopped_refuted). linear.z, angular.x/y are not touched by the node. The speed bound assumes an accurate hypot; a reference hypot is proved accurate.
* Theorems: `C33_no_component_is_amplified` [CDFN], `C33_linear_speed_within_maximum` [CDFN], `C33_nan_is_stopped_refuted` [CDFN], `C33_infinite_request_is_stopped_refuted` [CDFN], `C33_predicted_ratio_is_nonnegative` [DFN]

### C34 No cloud, no motion (proved)

* Modelled: callback state machine. Files: SafetyLimiter.v.
* Proof: Invariant over histories.
* Note: Finding: with a clock that starts at 0 (simulated time) the node is disabled at start without a request (C34_requires_explicit_disable_refuted).
* Theorems: `C34_stops_without_cloud_or_watchdog` [CDFN], `C34_stop_is_published_at_once` [CDFN], `C34_never_disabled` [CDFN], `C34_requires_explicit_disable_refuted` [CDFN]

### C35 The collision limit is held (proved)

* Modelled: same. Files: SafetyLimiter.v.
* Proof: Invariant over histories, monotonicity of rounded multiplication.
* Note: Finding: a dynamic reconfiguration drops the hold (C35_held_across_reconfiguration_refuted).
* Theorems: `C35_limit_is_held` [CDFN], `C35_held_across_reconfiguration_refuted` [CDFN]

### C36 The limited speed allows stopping before the obstacle (proved)

* Modelled: predict: time loop, delay compensation, speed ratio; the collision test is a parameter. Files: SafetyPredict.v.
* Proof: Real arithmetic (kinematics, square roots), loop invariant.
* Note: Exact arithmetic. Findings: not for a command newer than the one predicted (C36_newer_command_refuted) nor faster than configured (C36_faster_than_configured_refuted).
* Theorems: `C36_brakes_before_collision` [DFN], `C36_limit_is_tight` [DFN], `C36_blind_robot_stops` [DFN], `C36_horizon_covers_stopping` [DF], `C36_free_motion_is_not_limited` [DFN], `C36_faster_than_configured_refuted` [DFN], `C36_newer_command_refuted` [DFN]

### C37 Velocity and acceleration limits hold for every float (proved)

* Modelled: clip, VelAccLimitter in binary32. Files: BasicControl.v.
* Proof: Flocq case analysis.
* Note: IEEE single precision. Findings: a NaN target resets the output to zero at once (C37_change_is_bounded_for_nan_refuted); a negative time step breaks the bound (C37_negative_time_step_refuted).
* Theorems: `C37_output_is_finite` [CDFN], `C37_change_is_bounded` [CDFN], `C37_velocity_limit_is_kept` [CDFN], `C37_target_in_reach_is_set` [CDFN], `C37_increment_is_limited` [CDFN], `C37_nan_target_stops` [CDFN], `C37_change_is_bounded_for_nan_refuted` [CDFN], `C37_negative_time_step_refuted` [CDFN]

### C38 The tracker stops when it has no usable path (proved)

* Modelled: tracker callbacks and control decision; path geometry is an input. Files: Tracker.v.
* Proof: Case analysis over all states and inputs.
* Note: Findings: in timer mode a lost transform reports NO_PATH without a zero command (C38_lost_transform_stops_the_robot_refuted); the distance is not checked while turning in place (C38_far_while_turning_refuted). Measurements are inputs.
* Theorems: `C38_no_usable_path` [CDFN], `C38_not_localised` [CDFN], `C38_far_from_path` [CDFN], `C38_odometry_timeout` [-], `C38_stop_status_comes_with_zero_command` [CDFN], `C38_every_cycle_publishes_a_command` [CDFN], `C38_commands_are_finite` [CDFN], `C38_lost_transform_stops_the_robot_refuted` [CDFN], `C38_far_while_turning_refuted` [CDFN]

### C39 Path import keeps the route (proved)

* Modelled: Path2D::fromMsg, toMsg. Files: Path2D.v.
* Proof: Fold characterised by a recursive specification of stops.
* Note: The literal reading 'every pose farther than epsilon from its predecessor in the message is kept' is refuted (C39_keeps_every_long_step_refuted). Exact real arithmetic.
* Theorems: `C39_import_lists_the_stops` [DF], `C39_keeps_start_and_final_heading` [DF], `C39_no_three_poses_at_one_place` [DF], `C39_spaced_message_is_unchanged` [DF], `C39_export_import_is_identity` [DF], `C39_keeps_every_long_step_refuted` [DF]

### C40 Local goals split a path at every stop (proved)

* Modelled: findLocalGoal, enumerateLocalGoals. Files: Path2D.v.
* Proof: Fuel shown sufficient; exact characterisation by induction.
* Note: The stronger claim that every switch-back is returned is refuted (C40_every_switch_back_is_a_local_goal_refuted): two reversals in a row give one local goal.
* Theorems: `C40_local_goals_exact` [DFN], `C40_every_turn_is_a_local_goal` [DFN], `C40_every_switch_back_is_a_local_goal_refuted` [DFN]

### C41 The recorder stores spaced poses only (proved)

* Modelled: trajectory_recorder and trajectory_saver. Files: Recorder.v.
* Proof: Invariant over events.
* Note: Exact arithmetic. Finding: a clear request is not served while the transform is unavailable (C41_clear_is_served_refuted).
* Theorems: `C41_recorded_path_is_spaced` [DFN], `C41_every_addition_is_published` [DFN], `C41_clear_is_served_refuted` [DFN], `C41_saver_keeps_first_path` [-]

### C42 Joystick interrupt has priority and hands back control (proved)

* Modelled: joystick_interrupt. Files: Joystick.v.
* Proof: Representation of the state by the history; case analysis.
* Note: Finding: the command re-issued at release may be arbitrarily old (C42_released_command_is_fresh_refuted).
* Theorems: `C42_priority` [-], `C42_joystick_commands` [-], `C42_released_command_is_fresh_refuted` [-]

### C43 The joystick multiplexer forwards exactly the selected input (proved)

* Modelled: joystick_mux. Files: Joystick.v.
* Proof: same.
* Theorems: `C43_forwards_exactly_the_selected_input` [-], `C43_other_events_publish_nothing` [-], `C43_joystick_input_is_recent` [-]

### C44 The slip filter stays well-behaved (proved)

* Modelled: KalmanFilter1: set, predict, measure over reals with infinity and NaN. Files: Kalman.v.
* Proof: Invariant over histories; field arithmetic.
* Note: For zero noise the filter is poisoned: C44_zero_noise_poisons_filter_refuted (zero noise on a zero sigma gives NaN for ever). C44_sigma_is_posterior_deviation_refuted: the stored sigma is smaller than the deviation of the combined estimate.
* Theorems: `C44_healthy_after_any_history` [DF], `C44_measurement_never_increases_sigma` [DF], `C44_estimate_between` [DF], `C44_estimate_is_weighted_mean` [DF], `C44_measurement_informs` [DF], `C44_predictions_accumulate` [DF], `C44_first_measurement_taken` [-], `C44_infinite_noise_ignored` [-], `C44_sigma_is_posterior_deviation_refuted` [DF], `C44_zero_noise_poisons_filter_refuted` [DF]

### C45 Odometry integration telescopes and the height filter decays (proved)

* Modelled: track_odometry: cbImu, cbOdom, cbResetZ. Files: Odometry.v.
* Proof: Invariants over histories (raw position tracked; sign of the slip estimate).
* Note: Refuted beyond the stated conditions: after a gap longer than twice the time constant the height filter amplifies the height; with sigma_odom = 0 a standstill message loses the position.
* Theorems: `C45_agreeing_sensors_reproduce_raw_xy` [DF], `C45_agreeing_sensors_reproduce_raw_xyz` [DF], `C45_outage_messages_are_transparent` [DF], `C45_unfiltered_slip` [DF], `C45_filtered_slip_has_the_sign_of_the_bias` [DF], `C45_slip_filter_stays_healthy` [DF], `C45_height_filter_contracts` [DF], `C45_long_gap_amplifies_height_refuted` [DF], `C45_zero_sigma_loses_position_refuted` [DF]

### C46 Saved maps reload to the same map (proved)

* Modelled: save_maps image and yaml; map_server trinary loading is a specification. Files: MapOrganizer.v.
* Proof: Fold equals the row-by-row map; pixel classes; string lemmas.
* Note: Finding: a map name containing a directory makes the yaml file point to a wrong image path (C46_named_image_is_the_written_one_refuted). The reader is the map_server trinary format, stated as specification.
* Theorems: `C46_saved_map_reloads` [-], `C46_trinary_map_is_identical` [-], `C46_named_image_is_the_written_one_refuted` [-], `C46_named_image_absolute` [-], `C46_files_do_not_collide` [-]

### C47 The selected floor is the one published (partial)

* Modelled: select_map. Files: MapOrganizer.v.
* Proof: Invariant over histories.
* Note: Proved for histories with one map array; for a second array with unchanged floor the claim is refuted (C47_new_array_is_shown_refuted). Map/offset consistency holds for every history.
* Theorems: `C47_map_and_offset_belong_together` [-], `C47_last_valid_request_is_shown` [-], `C47_new_array_is_shown_refuted` [-]

### C48 Floor maps from point clouds say what the cloud contains (proved)

* Modelled: pointcloud_to_maps: histogram, floors, merging, filtering, widening. Files: FloorMaps.v, FloorMapsProofs.v.
* Proof: Fold characterisations.
* Note: Findings: merging frees an occupied cell of the lower floor when the floor one cell above is free there (C48_obstacle_kept_refuted); on the default 0.05 m grid int((43*grid)/grid) = 42, so the area of a floor at 2.15 m is looked up at another height and the floor is dropped (C48_floor_dropped_refuted).
* Theorems: `C48_floor_map` [-], `C48_area` [-], `C48_candidates` [-], `C48_largest_area` [-], `C48_published` [-], `C48_which_floors` [-], `C48_occupied_has_obstacle` [-], `C48_free_is_near_ground` [-], `C48_runs_published_once` [-], `C48_height_recovered_refuted` [CDFN], `C48_floor_dropped_refuted` [CDFN], `C48_obstacle_kept_refuted` [CDFN]

### C49 Smoothing filter has unit DC gain and converges (proved)

* Modelled: trajectory_tracker::Filter. Files: SmoothFilter.v.
* Proof: Linear recurrences over the reals.
* Theorems: `C49_lpf_converges` [DF], `C49_lpf_unit_gain` [DF], `C49_lpf_limit` [DF], `C49_hpf_removes_constant` [DF], `C49_lpf_no_overshoot` [DF], `C49_angle_takes_short_way` [DF], `C49_set_restarts` [DF]

### C50 Compatibility gate (proved)

* Modelled: compatibility.h. Files: Compat.v.
* Proof: Case analysis.
* Theorems: `C50_node_starts_iff_level_supported` [-], `C50_topic_names_are_uniform` [-], `C50_deprecation_logged_iff_old` [-]

### C51 Temporary escape search is bounded to the map and picks a reachable goal (partial)

* Modelled: updateTemporaryEscapeGoal and the local distance map window. Files: TempEscape.v.
* Proof: Box bounds; minimality by fold.
* Note: In-bounds is characterised exactly (iff) for the crowd escape; it is false at the far borders (one column is read outside the map, past the allocation for block-aligned maps) and with a search range of zero. The plain escape mode searches around the map origin and not around the robot (refuted). Local reachability and heading are parameters of the model (the distance map is modelled separately, C11).
* Theorems: `C51_escape_search_is_in_bounds_partial` [-], `C51_far_border_reads_outside_the_map_refuted` [-], `C51_far_border_reads_past_the_allocation_refuted` [-], `C51_zero_search_range_reads_outside_the_map_refuted` [-], `C51_escape_goal_is_reachable_and_best` [-], `C51_plain_escape_goal_is_near_the_robot_refuted` [-]

### C52 Jump detection (proved)

* Modelled: JumpDetector. Files: JumpDetector.v.
* Proof: Rigid transformations, induction over samples.
* Theorems: `C52_jump_reported_exactly` [DFN], `C52_no_false_alarm` [DFN]

### C53 Arrival times never decrease along a path (proved)

* Modelled: getEstimatedTimeOfArrivals, length. Files: Path2D.v.
* Proof: Induction over the path.
* Theorems: `C53_arrival_times_are_monotone` [DFN], `C53_length_is_polyline` [DFN], `C53_travel_time_is_length_over_speed` [DFN]

### C54 No command before a prediction (partial)

* Modelled: as C34. Files: SafetyLimiter.v.
* Proof: refutations by runs, one invariant.
* Note: Refuted: after start the first command is passed unlimited before any prediction (C54_first_command_is_predicted_refuted), and after recovery too once one command was handled (C54_recovery_waits_for_prediction_refuted). Proved: the first command after a timeout recovery is zero.
* Theorems: `C54_first_command_is_predicted_refuted` [CDFN], `C54_recovery_first_command_is_zero` [CDFN], `C54_recovery_waits_for_prediction_refuted` [CDFN]

### C55 Escape from a collision (proved)

* Modelled: as C36. Files: SafetyPredict.v.
* Proof: Loop invariant.
* Note: Exact arithmetic.
* Theorems: `C55_escape` [DFN]

### C56 The goal is reported only at the goal (proved)

* Modelled: as C38. Files: Tracker.v.
* Proof: Case analysis.
* Note: Finding: while turning, the heading without the prediction offset is not checked (C56_actual_heading_is_checked_refuted).
* Theorems: `C56_goal_is_reported_only_at_the_goal` [CDFN], `C56_new_path_starts_at_its_beginning` [CDFN], `C56_reached_local_goal_is_left_behind` [CDFN], `C56_actual_heading_is_checked_refuted` [CDFN]

### C57 Successive tracker commands respect the acceleration limits (proved)

* Modelled: as C38. Files: Tracker.v.
* Proof: Limiter theorem C37 composed over a cycle.
* Note: The single-step bound is refuted when limit_vel_by_avel is on (C57_single_step_refuted).
* Theorems: `C57_acceleration_is_limited` [CDFN], `C57_turning_only_slows_down` [CDFN], `C57_following_command` [CDFN], `C57_single_step_refuted` [CDFN]

### C58 The inflation template follows the distance to the footprint (proved)

* Modelled: Costmap3dLayerFootprint::generateCSpaceTemplate. Files: Polygon.v.
* Proof: Real geometry: point-segment distance, triangle inequality.
* Note: Exact real arithmetic. Within resolution/100 beyond the spread the cost is the minimum cost or 0.
* Theorems: `C58_distance_to_an_edge_is_the_least_distance` [DFN], `C58_template_range_suffices` [DFN], `C58_template_cost_follows_the_distance` [DFN]

### C59 The nearest point query returns the nearest strip of the path (proved)

* Modelled: Path2D::findNearestWithDistance and the strip distance of eigen_line.h. Files: PathGeom.v.
* Proof: Point-segment distance over the reals; loop invariant.
* Note: Findings: the eps that should only break ties accumulates (C59_error_is_bounded_refuted), ties at a corner go to the later strip (C59_ties_go_to_the_earlier_strip_refuted).
* Theorems: `C59_nearest_strip` [DFN], `C59_degenerate_ranges` [DFN], `C59_error_is_bounded_refuted` [DFN], `C59_ties_go_to_the_earlier_strip_refuted` [DFN]

### C60 The remaining distance is the length of the path ahead (proved)

* Modelled: Path2D::remainedDistance. Files: PathGeom.v.
* Proof: Induction over the rest of the path.
* Theorems: `C60_remaining_is_length_ahead` [DFN], `C60_overshoot_is_negative` [DFN], `C60_single_pose` [DFN]

### C61 The curvature of a path is the inverse of its signed radius (proved)

* Modelled: Path2D::getCurvature, curv3p, Average. Files: PathGeom.v.
* Proof: Trigonometric identities (chords and area of a triangle on a circle); loop invariant.
* Theorems: `C61_circle` [DFN], `C61_straight` [DFN], `C61_two_pose_arc` [DFN], `C61_mean_within_range` [DFN]

### C62 Planning continues from a free stretch of the previous path (proved)

* Modelled: StartPosePredictor::process and all it calls, over the path functions of Path2D.v and PathGeom.v. Files: StartPredict.v.
* Proof: Loop invariants for the two searches, the exact characterisations of the local goals (C40) and the nearest strip (C59), nearest integers for the cell centres.
* Note: In exact real arithmetic (the code uses double and float). Findings: the start pose is not collision checked (C62_start_is_free_refuted) and at the end of the path need not be a cell centre (C62_start_is_a_cell_centre_refuted); a previous path outside a new map is read out of bounds (C62_path_outside_the_map).
* Theorems: `C62_preserved_path_is_a_free_stretch_of_the_previous_path` [DFN], `C62_no_result_only_if_far_or_blocked` [DFN], `C62_far_robot_keeps_nothing` [DFN], `C62_defined_on_paths_inside_the_map` [DFN], `C62_start_is_free_refuted` [DFN], `C62_start_is_a_cell_centre_refuted` [DFN]

### C63 A search starts at exactly the free cells around the robot (proved)

* Modelled: buildStartPoses, isPathFinishing; the relocation search is a parameter (C14). Files: StartPoses.v.
* Proof: Case analysis over the four cells against the distance specification; signed remainder for orientations.
* Note: In exact real arithmetic. Findings: with an odd number of orientations and a tolerance of half of it one extreme difference is missed (C63_finishing_check_on_odd_angles_refuted; the main theorem excludes this case); a free robot cell is reported as occupied when the previous path cannot be continued (C63_occupied_start_is_occupied_refuted).
* Theorems: `C63_finishing_check` [-], `C63_finishing_check_on_odd_angles_refuted` [-], `C63_start_poses` [DFN], `C63_free_own_cell_is_a_start` [DF], `C63_starts_are_free` [DFN], `C63_defined` [DFN], `C63_occupied_start_is_occupied_refuted` [DFN]

### C64 The planner's preference for the last path reflects exactly that path (proved)

* Modelled: Hysteresis map generation in makePlan, clearHysteresis and its callers, distLinestrip2d. Files: Hysteresis.v, HysteresisProps.v.
* Proof: Invariant: cells not at 100 are on the list of written cells; distance minimum by induction over the path; unvisited cells are far by the box size.
* Note: In exact real arithmetic for distances; the float computation of the code is not modelled. hysteresis_max_dist = 0 (division by zero) is excluded.
* Theorems: `C64_values_follow_the_last_plan` [DFN], `C64_levels_are_bounded` [DFN], `C64_without_a_plan_all_cells_are_equal` [DFN], `C64_new_goal_or_map_forgets_the_plan` [DFN], `C64_obstacle_on_the_path_drops_the_map` [DFN], `C64_other_obstacles_keep_the_map` [DFN]

### C65 The planner's moves are exactly the drivable ones, in every direction (proved)

* Modelled: RotationCache::reset and the accessors, MotionPrimitiveBuilder::build. Files: Primitives.v.
* Proof: Case analysis of the filter against a geometric specification; the radii of the code are the distances of the common centre of both axles; symmetry by the specification depending on the local frame only.
* Note: In exact real arithmetic, with the angular resolution dividing the full turn; the symmetry theorems hold for exact arithmetic only (float rounding may break ties at the limits).
* Theorems: `C65_moves_are_the_drivable_ones` [CDFN], `C65_curves_follow_an_arc` [CDFN], `C65_straight_moves_keep_the_direction` [CDFN], `C65_same_moves_after_a_quarter_turn` [CDFN], `C65_same_moves_in_the_mirror` [CDFN]

### C66 Published joint trajectories keep the joint speed limits, take the requested time and end at the last command (proved)

* Modelled: cbJoint, cbTrajectory and replan of the joint planner as a state machine; each event carries the search result. Files: JointTraj.v.
* Proof: Invariants of the state machine over all histories; induction over the path for times and velocities.
* Note: In exact arithmetic; the search is a parameter (its path: Joint2D, C20). Findings: C66_first_command_of_zeros_refuted, C66_command_for_the_current_angles_refuted, C66_reordered_command_refuted.
* Theorems: `C66_joint_limits_hold` [DF], `C66_new_commands_take_the_requested_time` [DF], `C66_replans_keep_the_velocity` [DF], `C66_published_trajectories_end_at_the_last_command` [DF], `C66_no_undefined_behaviour` [DF], `C66_replans_wait_for_the_interval` [DF], `C66_first_command_of_zeros_refuted` [DF], `C66_command_for_the_current_angles_refuted` [DF], `C66_reordered_command_refuted` [DF]

### C67 The limiter tests the robot's outline along the commanded arc, and stops before an obstacle in the way (proved)

* Modelled: Collision test of one predicted pose: downsampled and height-filtered points, motion matrices, radius search, polygon test. Files: SafetyCollide.v.
* Proof: Induction over the steps against a pose integrator; hull theorem of C32 for the search radius; composition with C32 and C36 for the straight drive.
* Note: In exact arithmetic, after downsampling (PCL's VoxelGrid is an arbitrary function). Finding: steps longer than the robot jump over obstacles (C67_long_steps_jump_over_the_obstacle_refuted).
* Theorems: `C67_search_radius_covers_the_footprint` [DFN], `C67_a_pose_collides_iff_a_point_is_in_the_footprint` [DFN], `C67_straight_drive_stops_before_the_obstacle` [DFN], `C67_any_motion_stops_before_the_obstacle` [DFN], `C67_long_steps_jump_over_the_obstacle_refuted` [DFN], `C67_nothing_in_the_height_range` [DFN]

### C68 The limiter's prediction tests the clouds received since the last prediction, where they are (proved)

* Modelled: Accumulated cloud, clear flag and in-place transformation as a state machine. Files: SafetyCollide.v.
* Proof: Invariant over histories.
* Note: Finding: predictions faster than the clouds see the obstacles displaced (C68_a_second_prediction_sees_the_same_points_refuted, C68_points_are_transformed_again).
* Theorems: `C68_prediction_tests_the_clouds_since_the_last_one` [-], `C68_nothing_is_tested_without_a_cloud` [-], `C68_a_timeout_forgets_the_clouds` [-], `C68_nothing_is_tested_without_a_transform` [-], `C68_a_second_prediction_sees_the_same_points_refuted` [DF], `C68_points_are_transformed_again` [-]

### C69 The path server publishes the requested file and its edits, marker by marker (proved)

* Modelled: Path, markers and publications of the path server; smoothing by two low-pass filters (SmoothFilter.v). Files: TrajServer.v.
* Proof: Invariant over histories; element-wise list specifications; convexity of the filter steps.
* Note: Findings: a request for a missing file empties the path but keeps the markers, whose feedback is then undefined (C69_feedback_after_a_missing_file_refuted); smoothing a file without poses is undefined (C69_smoothing_an_empty_path_refuted); steps below 1/2 overshoot (C69_small_steps_overshoot_refuted).
* Theorems: `C69_markers_match_the_path` [DF], `C69_feedback_edits_its_pose` [DF], `C69_requested_file_is_published` [DF], `C69_missing_file_clears_the_path` [DF], `C69_feedback_after_a_missing_file_refuted` [DF], `C69_smoothing_an_empty_path_refuted` [DF], `C69_smoothed_path_stays_in_the_box` [DF], `C69_small_steps_overshoot_refuted` [DF]

### C70 Simulated occlusion hides what is behind obstacles, and only that (proved)

* Modelled: Table of hidden cells of largemap_to_map, built from samples of the lines of sight; its use is in Sensor.v. Files: Occlusion.v.
* Proof: Samples against cells and lines of sight; induction over the addresses; an integer criterion for cells at rational distance for the examples.
* Note: In exact real arithmetic. Finding: an obstacle that is itself hidden still hides other cells if its address is smaller than the one of the obstacle in front of it (C70_only_shown_obstacles_hide_refuted, C70_order_of_addresses_matters).
* Theorems: `C70_obstacles_hide_what_is_behind_them` [DFN], `C70_obstacles_hide_all_they_cover` [DFN], `C70_near_cells_are_never_hidden` [DFN], `C70_exact_shadows` [DFN], `C70_free_sight_is_shown` [DFN], `C70_covered_cells_are_unknown` [DFN], `C70_local_map` [DFN], `C70_only_shown_obstacles_hide_refuted` [DFN], `C70_order_of_addresses_matters` [DFN]

### C71 The planner's status tells the outcome of each planning cycle, and giving up follows the retry limit (proved)

* Modelled: The goal state machine of C15, C16. Files: Planner.v.
* Proof: Case analysis of a cycle over the frame of createCostEstimCache; publications as list extensions.
* Note: Findings: without a robot pose nothing is planned but the status stays DOING, GOING_WELL (C71_missing_robot_pose_is_reported_refuted); the cycle that gives up publishes no status (C71_gives_up_beyond_the_limit).
* Theorems: `C71_status_tells_the_outcome` [-], `C71_gives_up_beyond_the_limit` [-], `C71_no_abort_within_the_limit` [-], `C71_blocked_tries_are_counted` [-], `C71_goals_outside_of_the_map_are_aborted` [-], `C71_missing_robot_pose_is_reported_refuted` [-]

### C72 The projected frame lies at the foot of the perpendicular and keeps the heading (proved)

* Modelled: projectTranslation and the cycle of the node over rotation matrices; getYaw by the direction of the x axis. Files: TfProjection.v.
* Proof: Isometry of rotations (nsatz), distances to the foot of the perpendicular, cancellation of the surface transform.
* Note: In exact real arithmetic, rotations as matrices; what getYaw gives for a vertical x axis is a parameter. Finding: with align_all_posture_to_source the origin is moved although the source stands on the surface (C72_align_projects_to_the_nearest_point_refuted).
* Theorems: `C72_origin_is_the_nearest_point_of_the_surface` [DFN], `C72_aligned_origin` [DFN], `C72_align_is_idle_when_upright` [DFN], `C72_result_is_rigid` [DFN], `C72_projected_posture` [DFN], `C72_kept_posture` [DFN], `C72_flat` [DFN], `C72_projecting_twice` [DFN], `C72_stamp` [DFN], `C72_align_projects_to_the_nearest_point_refuted` [DFN]

### C73 The cloud made from meshes lies on their triangles, evenly and with the wanted density (proved)

* Modelled: split, the extension test and convertObj over files given as a function of their names; the random engine as a sequence of draws. Files: ObjCloud.v.
* Proof: Induction over names, faces and samples; the two pairs of draws of a point by the cross product.
* Note: In exact real arithmetic, up to the cloud that is handed to pcl::VoxelGrid.
* Theorems: `C73_names` [-], `C73_cloud` [DFN], `C73_no_cloud` [DFN], `C73_defined` [DFN], `C73_rounding_is_fair` [DFN], `C73_density_is_even` [DFN], `C73_points_use_their_own_draws` [DF], `C73_faces_use_their_own_draws` [DFN]

### C74 The make_plan service returns cheapest obstacle-free plans and refuses only with reason (proved)

* Modelled: cbMakePlan from cells on, the model GridAstarModel2D over the linear motion cache, composed with the search of AStar.v and the relocation of SearchAvail.v. Files: MakePlanSrv.v.
* Proof: Cells of a page = cells passed (permutation); moves of the search = hops; the heuristic is consistent by the triangle inequality; C06, C07 and C08 instantiated.
* Note: In exact real arithmetic. Findings proved beside it: the orientation asked for is ignored, a request whose start and goal share a cell fails, and relocation may pick an orientation the search cannot reach.
* Theorems: `C74_plan_is_a_cheapest_way` [DFN], `C74_the_answer_is_right` [DFN], `C74_plan_poses_lie_in_free_cells` [DFN], `C74_plan_ends_with_the_orientation_asked_for_refuted` [DFN], `C74_start_at_the_goal_gets_a_plan_refuted` [DFN], `C74_reachable_free_cell_within_tolerance_gets_a_plan_refuted` [DFN]

### C75 The simulated robot's odometry follows the commands (proved)

* Modelled: The callbacks and one cycle of spin() as a state machine that emits odometry messages. Files: DummyRobot.v.
* Proof: Induction over the history; the triangle inequality for the distance; the mean value theorem for the arc.
* Note: In exact real arithmetic. Finding proved beside it: the last command stays in force for ever.
* Theorems: `C75_each_report_is_of_one_cycle_of_the_command_in_force` [DFN], `C75_set_pose_is_reported_and_kept` [DFN], `C75_unknown_frame_changes_nothing` [DFN], `C75_heading_is_the_sum_of_the_reported_turns` [DFN], `C75_position_is_the_sum_of_the_reported_moves` [DFN], `C75_never_further_than_the_reported_speeds` [DFN], `C75_speed_limit_is_kept` [DFN], `C75_close_to_an_ideal_robot` [CDFN], `C75_robot_stops_when_the_commands_stop_refuted` [DFN]

### C76 Tied maps are complete and in order (proved)

* Modelled: The constructor of TieMapNode: names, entries of the documents with absent and unreadable cases, exceptions, publications. Files: TieMaps.v.
* Proof: Induction over the list of files; dirname characterised by the shape of the path (uniqueness of the directory).
* Note: The image loader of map_server is an arbitrary function. Finding proved beside it: a missing (with yaml-cpp >= 0.5 also an unreadable) entry is not reported by the orderly shutdown written for it but terminates the process by an uncaught exception.
* Theorems: `C76_all_maps_are_published` [D], `C76_a_bad_file_ends_the_node` [D], `C76_array_is_complete` [D], `C76_missing_entry_is_reported_refuted` [D], `C76_unreadable_entry_is_reported_refuted` [D], `C76_missing_file_is_reported` [D]

### C77 Poses are republished in the requested frame (partial)

* Modelled: The callback over rigid transforms and the program that main builds. Files: PoseTransform.v.
* Proof: Algebra of transforms; the program has no node, so its output is empty (refuted).
* Note: The callback is proved to move the whole pose, to keep distances and to answer each pose that can be transformed, once and in order, with its covariance as sent. The claim itself is false of the program: main declares a function instead of constructing the node (PoseTransformNode ptn();), so nothing is ever published (C77_program_publishes_transformed_poses_refuted); the covariance is copied without being rotated (C77_covariance_follows_the_frame_refuted).
* Theorems: `C77_callback_moves_the_whole_pose_partial` [DF], `C77_callback_keeps_distances_partial` [DFN], `C77_callback_answers_in_order_partial` [D], `C77_callback_answers_each_pose_partial` [DF], `C77_covariance_follows_the_frame_refuted` [DF], `C77_program_publishes_transformed_poses_refuted` [-]

### C78 The planner plans again exactly when there is a reason (proved)

* Modelled: The loop of waitUntil look by look, the next planning time of spin and getSwitchIndex. Files: PlanWait.v.
* Proof: Invariant of the direction so far for the switch-back; case analysis of a look; induction over looks without planning for the deadline.
* Note: Proved for a last path that lies in the current map; that it may not is a finding (C78_path_of_another_map_is_safe_refuted). A second finding: the long wait is not ended with the goal it was made for (C78_wait_ends_with_the_goal_refuted). Times and poses are real numbers; trigger_plan_by_costmap_update is off.
* Theorems: `C78_switchback_is_the_first_reversal` [DFN], `C78_plans_exactly_for_a_reason` [DFN], `C78_never_late` [DFN], `C78_waits_only_for_a_reversal` [DFN], `C78_what_it_waits_for` [DFN], `C78_wait_ends_with_the_goal_refuted` [DFN], `C78_path_of_another_map_is_safe_refuted` [DFN]

### C79 The ends of the two links keep clear of each other along every planned motion (proved)

* Modelled: The ends and discs of the links over the reals; the cells of the map as in C20. Files: LinkBody.v, with Joint2D.v.
* Proof: The ends move at most by length times angle (chord against arc); every point of a move is within 1.1 cells of a sampled cell, and sent angles within half a cell of the searched ones; periodicity for whole gains.
* Note: Geometry in exact reals; the sampling of the moves in binary32 as in C20. The found path is what C06 proves of the search. Findings proved beside it: the sides of the links are not tested, crossing links count as free (C79_links_do_not_cross_refuted); with a gain that is not whole the moves are tested at other configurations than those driven (C79_any_gain_is_checked_refuted).
* Theorems: `C79_test_is_exact_for_the_ends` [DFN], `C79_searched_motion_keeps_clear` [CDFN], `C79_direct_motion_keeps_clear` [CDFN], `C79_links_do_not_cross_refuted` [DFN], `C79_any_gain_is_checked_refuted` [DFN]

### C80 The joint planner refuses a goal exactly if there is no way, and sends only ways that keep clear (proved)

* Modelled: makePlan of the joint planner with its A* search in binary32 on the model of the two joints. Files: JointPlan.v, with Joint2D.v, LinkBody.v and AStar.v.
* Proof: The moves of the search are the moves of the specification (both directions); bounds of costs and estimates in binary32; then C06, C08, C20 and C79.
* Note: Costs and the search in IEEE binary32, composed of C06, C08, C20 and C79; geometry and sent angles exact. Premise: link coefficients at most 4000, so that estimates fit into an int. Finding: a search longer than replan_interval is cancelled and reported as an unreachable goal (C80_refused_only_if_there_is_no_way_refuted); direct plans over more than half a turn: C20.
* Theorems: `C80_planning_is_defined` [CDFN], `C80_refused_exactly_if_there_is_no_way` [CDFN], `C80_sent_plan_keeps_clear` [CDFN], `C80_refused_only_if_there_is_no_way_refuted` [CDFN]

### C81 A planning cycle finds a drivable obstacle-free way exactly if there is one, and its answer means what it says (proved)

* Modelled: makePlan with the cost formulas, the estimate and the offered moves of GridAstarModel3D. Files: Plan3D.v, with StartPoses.v, StartPredict.v, SearchAvail.v, Primitives.v, MotionReset.v, Cost3D.v, MotionCache.v, AStar.v.
* Proof: The moves of the search are the legal steps of the specification (both directions, Plan3DMoves.v); then C06, C08, C09, C14, C62, C63, C65.
* Note: makePlan composed of the start poses (C62, C63), relocation (C14), motion primitives (C65), motion cache (C09), costs (C09), search (C06, C08), interpolation (C11) and grid conversion (C18), in exact arithmetic. Premise of definedness: every start has an estimate that fits an int; without it the cycle is undefined (C81_start_without_estimate_is_undefined, with an example on a map without obstacles). A path that continues a previous one may consist of a single pose in an obstacle (C81_published_poses_are_free_refuted); the theorem excludes exactly that case.
* Theorems: `C81_the_planner_answers` [CDFN], `C81_what_the_planner_answers` [CDFN], `C81_start_without_estimate_is_undefined` [DFN], `C81_a_way_is_found` [CDFN], `C81_published_poses_are_free_refuted` [CDFN]

### C82 An unreachable goal is reported only if there is no way (proved)

* Modelled: makePlan against the distance map made for the same map and costs. Files: Plan3D.v, DistMap.v, MotionReset.v, Overlay.v.
* Proof: The cells a motion passes form a chain of neighbouring cells because curve samples are a tenth of a cell apart (MotionChain.v); a chain of free cells is a route of the distance map, whose start value is exact (C10). The relation of the two costmaps from C13.
* Note: C81's makePlan with C10's distance map: every motion's cells, sampled every tenth of a cell, form a chain of neighbouring cells (MotionChain.v), which is a route of the distance map. Samples of curves are assumed within a quarter cell of the exact curve. Restated after findings: if the start was relocated, the report can be wrong (C82_moved_start_refuted); with overwrite_cost or updates of some headings the 2D costmap can be above the costs (C82_overwritten_cost_is_not_below_refuted, C82_cost_of_an_absent_heading_refuted).
* Theorems: `C82_rough_cost_is_not_above` [-], `C82_overwritten_cost_is_not_below_refuted` [-], `C82_cost_of_an_absent_heading_refuted` [-], `C82_unreachable_means_no_way` [CDFN], `C82_nothing_to_plan_from_the_starts` [CDFN], `C82_enclosed_robot_gets_no_path` [DFN], `C82_moved_start_refuted` [CDFN]

### C83 The robot's outline keeps clear of the mapped obstacles along planned paths (proved)

* Modelled: the footprint template, the inflation of the base map, the planner's copy of the costs and makePlan. Files: Polygon.v, Inflate.v, Layers.v, Overlay.v, Plan3D.v.
* Proof: A cost below 100 in the planner means a cost below 100 in the costmap (C13), hence a template value below 100 at the offset of every occupied cell (C23), hence the clearance (template_cell; beyond the range of the template C58). Planned motions pass only cells below 100 (C81). For a point-shaped footprint the template is a function of the distance that falls.
* Note: C58 (template), C23 (inflation), C13 (the planner's copy of the costs) and C81 (makePlan) joined. Between the grid poses of a motion the claim is about the cells the motion passes; the first pose kept from a previous path is not covered. Finding: with unknown_cost below 100 a robot may be sent through an unknown cell next to an obstacle (C83_unknown_cells_keep_clear_refuted). Slender footprints whose template does not lose cost with distance are excluded (C23).
* Theorems: `C83_planned_paths_keep_clear` [CDFN], `C83_round_robots_keep_their_distance` [CDFN], `C83_unknown_cells_keep_clear_refuted` [DFN]

### C84 The planner works with the last configuration and the last map (proved)

* Modelled: cbParameter, resetGridAstarModel and cbMap as transitions on the derived parameters, the search model and the parameters of the distance map. Files: Reconfig.v.
* Proof: Invariant over histories: all derived from the last configuration and map, the model from a map with the same grid. The refutations evaluate the cost function of Cost3D.v with the border of the stale model.
* Note: Restated after a finding: the search model, with the border in which curves are refused, is rebuilt only if the resolution or the search range changes, not if the size of the map does. In a larger map all curves outside the old map are refused (C84_curves_in_a_larger_map_refuted); in a smaller one curves are evaluated with cells outside the map (C84_reads_inside_a_smaller_map_refuted). Quotients are exact in the model.
* Theorems: `C84_the_last_configuration_and_map_count` [DFN], `C84_like_a_new_planner` [DFN], `C84_ranges_in_cells` [DFN], `C84_costs_are_times` [DFN], `C84_curves_in_a_larger_map_refuted` [DFN], `C84_reads_inside_a_smaller_map_refuted` [DFN]

### C85 The costmap node builds exactly the configured layers, or does not start (proved)

* Modelled: XML values with their accessors, the constructor of the costmap node, the class loader and loadConfig of all layers as partial functions from parameters to the stack of layers. Files: LayerConfig.v.
* Proof: Equivalence between the constructor and a grammar of configurations (relations, read off the documentation); the stack it yields meets the conditions of C25, so the run theorem of Layers.v applies; induction over the chain for the published map.
* Note: The accessors of XmlRpcValue (a dependency) are modelled after their published behaviour. Findings: margins left out or misspelt are taken as 0 (C85_missing_margins_are_refused_refuted), so are missing coordinates of the footprint (C85_incomplete_footprints_are_refused_refuted); in single layer mode the overlay ignores linear_spread_min_cost (C85_single_layer_is_like_the_root_refuted); the documented class Costmap3dLayerOutput is not registered (C85_documented_output_layer_refuted); unknown_cost wraps around (C85_unknown_cost_is_kept_refuted). Conversion of doubles to float is not modelled.
* Theorems: `C85_the_stack_is_as_configured` [DF], `C85_overlay_maps_reach_their_layer` [DF], `C85_configured_nodes_serve_all_messages` [DFN], `C85_the_costmap_has_the_static_layers` [DFN], `C85_mistakes_stop_the_node` [DF], `C85_missing_margins_are_refused_refuted` [DF], `C85_incomplete_footprints_are_refused_refuted` [D], `C85_single_layer_is_like_the_root_refuted` [DF], `C85_documented_output_layer_refuted` [DF], `C85_unknown_cost_is_kept_refuted` [-]

### C86 The robot's outline keeps clear of the obstacles its sensors report (proved)

* Modelled: the chain of layers with its update regions, the update message, the copy of the costs in the planner and makePlan. Files: Layers.v, Overlay.v, Plan3D.v, Polygon.v.
* Proof: Induction over the chain: the region handed to a layer grows towards the output, and costs drawn by a layer are not lowered by layers that raise; the update is the cut-out of the top map over the region (C26); then as C83.
* Note: Chains C23, C25/C26 (layers), C13 (the planner's copy) and C81 (makePlan). The conclusion is about the latest message of a layer at or above the one just updated. Finding: for a layer below it fails (C86_obstacles_of_lower_layers_stay_in_the_plan_refuted): with two sensor layers the obstacles of the lower one vanish from the planner while the upper one is updated twice.
* Theorems: `C86_free_poses_keep_clear_of_sensed_obstacles` [DFN], `C86_planned_paths_keep_clear_of_sensed_obstacles` [CDFN], `C86_obstacles_of_lower_layers_stay_in_the_plan_refuted` [-]

### C87 The planner plans with distances of the present goal and costs (proved)

* Modelled: every callback of planner_3d that makes, clears or consults the distance map or sets cost_estim_cache_created_; geometry, remembered costs, the search for free cells and for temporary goals are parameters. Files: DistSync.v (with DistMap.v, Overlay.v).
* Proof: Invariant: if there is a goal and the flag is set, the distances are the result of create for the present members; by cases on the events. The meaning of the values is C10. Six concrete histories refute the claim without the side conditions.
* Note: With the two exceptions in the statement, both of which are findings: without them the claim is refuted in six ways (C87_*_refuted), e.g. a goal sent while the pose is unknown is planned with the distances of the goal before. fast_map_update (off by default) patches the map instead, see C11.
* Theorems: `C87_consulted_distances_are_up_to_date` [-], `C87_an_update_repairs_the_distances` [-], `C87_the_goal_is_the_one_asked_for` [-], `C87_up_to_date_distances_are_route_costs` [-], `C87_example_days_are_up_to_date` [-], `C87_example_distances_are_route_costs` [-], `C87_reconfiguration_while_moving_refuted` [-], `C87_map_while_the_pose_is_lost_refuted` [-], `C87_update_while_the_pose_is_lost_refuted` [-], `C87_closing_update_while_the_pose_is_lost_refuted` [-], `C87_goal_while_the_pose_is_lost_refuted` [-], `C87_forgetting_while_moving_refuted` [-]

### C88 The status of the safety limiter is true (proved)

* Modelled: diagnoseCollision, its calls, and the two members only it reads, on top of the callbacks of C33-C35. Files: SafetyStatus.v (on SafetyLimiter.v).
* Proof: The status is a function of the state after the callback; the fields are related to the history by the invariants of C33-C35, the stuck time by induction over the history from the right.
* Note: Finding: predictions that return early (empty cloud, no transformation, no point in the height range) and time-outs leave the stuck time as it was, so the status may say since when the robot is stuck although nothing is there any more (C88_*_refuted); the statement therefore speaks of predictions that test the position. The updater's own timer, which publishes the status at other moments too, is left out.
* Theorems: `C88_status_tells_what_happens_to_the_next_command` [CDFN], `C88_status_fields` [CDFN], `C88_summaries` [CDFN], `C88_stuck_since` [CDFN], `C88_stuck_is_cleared_with_the_obstacles_refuted` [CDFN], `C88_stuck_survives_a_timeout_refuted` [CDFN]

### C89 The tracker reports the goal only at the end of its path, after every stop (proved)

* Modelled: The measurements of getTrackingResult on the path, which C38 and C56 take as given, and the node with them: path messages and poses as input. Files: TrackSense.v (on Tracker.v, Path2D.v, PathGeom.v).
* Proof: What a measurement says is proved in the frame of the path (invariance under rigid motion); the stops behind and ahead are a ghost ledger, an invariant over histories; being at a stop is a statement about an earlier event.
* Note: Findings, each with a C89_*_refuted theorem: with poses more than 1 m apart the robot can stand on the last pose and be told that 4 m are left, and GOAL can be reported a stretch too early (behind a turn, or a pose given twice); the distance beside the path does not count at its end; with path_step above 1 the last pose may be dropped; the check without odometry prediction extrapolates a second time instead of none; changing path_step while a path is followed reads beyond the path. Coordinates are exact reals.
* Theorems: `C89_reads_only_the_path` [CDFN], `C89_goal_is_the_end_of_the_path` [CDFN], `C89_reported_distance_is_the_way_ahead` [CDFN], `C89_kept_poses` [-], `C89_imported_paths_are_suitable` [DFN], `C89_reads_only_the_path_after_reconfiguration_refuted` [CDFN], `C89_standing_at_the_end_is_the_goal_refuted` [CDFN], `C89_goal_at_the_end_of_any_path_refuted` [CDFN], `C89_goal_is_near_the_last_pose_refuted` [CDFN], `C89_goal_at_the_last_pose_with_path_step_refuted` [CDFN], `C89_goal_at_the_measured_pose_refuted` [CDFN]

### C90 The tracker brakes in time for the stops of its path, and arrives (proved)

* Modelled: The linear velocity command (timeOptimalControl, clip, VelAccLimitter::set, the limit by the angular velocity) over the reals, in closed loop with a robot that moves as commanded. Files: Braking.v.
* Proof: Invariant over cycles on the speed x towards the stop and the way r left: x^2 + acc_toc D x <= 2 acc_toc r + acc_toc D V + 2 acc_toc look acc D.
* Note: Exact reals, an ideal robot on a straight stretch with the right heading. Finding: the stop can be passed, by as much as V*D/2 (C90_never_passes_the_stop_refuted), because the command does not account for the length of a cycle.
* Theorems: `C90_brakes_in_time` [DFN], `C90_speed_is_braked` [DFN], `C90_does_not_back_off` [DFN], `C90_arrives` [DFN], `C90_never_passes_the_stop_refuted` [DFN]

### C91 Turns in place stop in time, and arrive (proved)

* Modelled: The angular velocity command of a turn in place with time optimal control, over the reals, in closed loop with a robot that turns as commanded. Files: Braking.v.
* Proof: A turn is an approach (C90) whose look-ahead depends on the length of the cycle; the invariant of C90 is proved for every look-ahead up to a bound.
* Note: Exact reals, an ideal robot; the control without use_time_optimal_control is not covered. Finding: the wanted heading can be passed by V*D/2 even with the look-ahead gain (C91_never_turns_too_far_refuted), because a command given at rest looks no cycle ahead.
* Theorems: `C91_turn_stops_in_time` [DFN], `C91_rate_is_braked` [DFN], `C91_arrives` [DFN], `C91_never_turns_too_far_refuted` [CDFN]

### C92 Driving straight behind the limiter, the robot does not run into what its sensors see (proved)

* Modelled: The limiter (prediction from the cloud, r_lim_, limit) in closed loop with a robot driving straight ahead among static obstacles. Files: LimitedDrive.v (on SafetyCollide.v, SafetyPredict.v).
* Proof: Invariant over stages; each stage by the theorem on a single prediction (C67): the way driven until the next prediction is less than the stopping distance.
* Note: Exact reals, forward motion, static obstacles all seen in every cloud without downsampling, limit held until the next prediction (C35). C92_late_predictions_refuted: the bound on the time between predictions is needed.
* Theorems: `C92_does_not_run_into_obstacles` [DFN], `C92_obstacles_ahead_stay_ahead` [DFN], `C92_not_on_the_way_either` [DFN], `C92_late_predictions_refuted` [DFN]

## 5. Findings

Each line is a behaviour of the code that a user would not expect; those with a theorem name are proved.

* A*: with an admissible but inconsistent heuristic, unbalanced start costs, or more than one task per batch the
  returned path need not be cheapest (C07 `_refuted`). `const int cost_estim` receives FLT_MAX (undefined
  conversion). The `better`/`cost_estim_min` updates (grid_astar.h:309-313) race between threads. Duplicate
  start cells overwrite each other's cost.
* Distance map: a goal given while the start is outside the map is remembered but not computed; after a costmap
  change an update keeps stale values (C11 `_refuted`).
* Costmap updates in the planner: yaw offset unchecked, position plus width may wrap (C13 `_refuted`).
* searchAvailablePos drops the minimum distance on the second attempt (C14 `_refuted`).
* Planner life cycle: DOING without a goal, unanswered second action, unreported give-up (C15 `_refuted`); stale
  costmap reported as GOING_WELL without a goal (C16 `_refuted`).
* Patrol stalls on results other than succeeded/aborted (C17, exact characterisation).
* Motion cache: empty motions drop way-points (C19 `_refuted`); curve pages do not extend `max_range`.
* Joint planner: direct plan beyond half a turn is checked the other way round; expansion does not wrap; zero
  expansion is undefined behaviour (C20 `_refuted`).
* Regions and templates: stamps lost on merge (C21), out-of-range template reads accepted (C22).
* Inflation: masked neighbours of slender footprints, border and outside obstacles missed (C23 `_refuted`).
* Layer chain: ghosts outside the update area, updates not covering inflation, empty base map with buffered
  overlays (C25, C26, C27 `_refuted`).
* Accumulator: second expired cloud kept, `++end()` (C29 `_refuted`).
* Sensor maps: truncation marks edge cells, laserscan_to_map tests one height for the scan, far points overflow
  (C30 `_refuted`).
* Limiter: NaN and infinite requests, disabled at time 0, hold dropped on reconfiguration, first command
  unlimited, newer/faster commands than predicted (C33-C36, C54 `_refuted`); `dt = 0` loops for ever.
* Velocity limiter: NaN target and negative time step (C37 `_refuted`).
* Tracker: lost transform without stop, no distance check while turning (C38), heading check (C56), two-step
  acceleration (C57) (`_refuted`).
* Paths: long steps dropped on import (C39), consecutive switch-backs merged (C40) (`_refuted`).
* Path geometry: accumulated tie-break in the nearest point query (C59 `_refuted`); curvature of repeated poses divides
  zero by zero.
* Recorder: clear not served without tf (C41); joystick: stale command at release (C42) (`_refuted`).
* Odometry and filter: zero noise, long gaps, over-confident sigma (C44, C45 `_refuted`).
* Map organizer: image path with directory (C46), stale floor for new array (C47), merged obstacle and dropped
  floor (C48) (`_refuted`).
* Temporary escape: reads one column outside, plain mode searches at the origin (C51 `_refuted`).
* Start of a plan: the pose on the previous path is not collision checked, a free robot cell is reported as occupied when
  the previous path is lost, a path outside a new, smaller map is read out of bounds (C62, C63 `_refuted`).
* Joint planner: a first command of zeros and a command for the current angles lead to undefined behaviour, a repeated
  command with reordered joints swaps the targets (C66 `_refuted`).
* Limiter: predictions faster than the clouds transform the points again, so that obstacles appear displaced (C68 `_refuted`);
  prediction steps longer than the robot jump over obstacles (C67 `_refuted`).
* Path server: a request for a missing file empties the path but keeps the markers, whose feedback then writes outside of the vector; an
  empty file with smoothing reads a missing pose; smoothing steps below 1/2 overshoot (C69 `_refuted`).
* Large map: with simulated occlusion a hidden obstacle hides further cells or not, depending on the order of the addresses (C70 `_refuted`).
* Planner: without a robot pose (failing tf) a goal is never planned, but the status stays DOING with GOING_WELL (C71 `_refuted`).
* tf_projection: align_all_posture_to_source turns the origin of the source about the surface's origin, so the projection is not below the source (C72 `_refuted`).
* make_plan service: it ignores the orientations of the request (plans keep orientation 0), fails when start and goal share a cell, and may
  relocate an occupied goal to another orientation, which its search can never reach: it then reports "unreachable" although a free cell
  within the tolerance is reachable. `map_info_linear.angle = 1` has no effect: the linear motion cache is built for all orientations (C74 `_refuted`).
- C75: the simulated robot has no timeout for commands: when their source dies it keeps moving with the last one for ever (a real base would stop).
- C76: tie_maps catches YAML::InvalidScalar only; an absent entry (KeyNotFound or BadConversion) terminates the process instead of the orderly shutdown
  with a message; maps before the bad file stay published as single maps.
- C77: pose_transform never works: `PoseTransformNode ptn();` in main is a function declaration, no node is constructed and nothing is published. Its callback
  copies the covariance without rotating it.
- C78: the cells of the last path are read from the current costmap although cbMap may have replaced the map by a smaller one (the path is not cleared):
  an undefined access. The wait of a switch-back outlives its goal: with the goal cancelled the loop goes on with sw_wait instead of the period, and a new
  goal is not planned before it has passed.
- C79: the collision test of the two links looks at their ends and joints only (the code says "add side collision"): links that cross are taken as free.
  Moves are tested modulo a full turn of the joint, which is another configuration if link*_gain_th is not a whole number.
- C80: a search of the joint planner that takes longer than replan_interval (0.2 s by default) is cancelled and reported as "goal unreachable" although there may be a way.
- C09: max_range_ of the motion cache, the width of the band at the border of the map where motions are checked cell by cell against the map's edge, is computed from straight motions only; curves are left out (motion_cache.cpp:106 has no counterpart in 152-156). Curves that turn by more than a right angle leave the band; they are stored but never tried, and those that are tried stay inside (proved for an even number of headings).
- C81: makePlan looks up only the cell of the robot in the distance map. If another start (an anti-aliased neighbour, the relocated cell, the next pose of the
  previous path) has no way to the goal, its estimate FLT_MAX is converted to an int (grid_astar.h:219), which is undefined; on x86 the priority becomes -2^31, the start is expanded first.
- C81: while a previous path is continued the plan starts from its next pose even if an obstacle is there now; if nothing leads out of it and find_best is set (or the
  estimate allows to leave at once), a path of one pose inside the obstacle is published.
- C82: makePlan asks the distance map for the robot's own cell even if the start was relocated out of an obstacle (planner_3d.cpp:1941); if all neighbours of the
  robot's cell are occupied in the 2D costmap, every cycle ends with "goal unreachable" although there is a way from the relocated start.
- C82: cbMapUpdate lays updates over the 2D costmap by maximum only: with overwrite_cost an update that clears an obstacle clears it in the costmap but not in the
  2D costmap of the distances, so goals behind it stay "unreachable"; and an update of some headings blocks the cell in the 2D costmap for all headings.
- C83: setBaseMap overwrites the inflated costs of cells of unknown occupancy with -1 (base.h:327-338), which planner_3d replaces by unknown_cost; with unknown_cost below 100 paths
  may lead through an unknown cell right beside an obstacle, where the footprint covers the obstacle.
- C84: cbMap rebuilds the search model only if the resolution changes (planner_3d.cpp:1008-1018). After a map of another size but the same resolution the model keeps the
  border of the old map (max_boundary_): in a larger map no curve is planned outside the area of the old one; in a smaller map curves near the new border are
  evaluated although they leave the map, reading cells outside it. C81, C82 and C83 are about a model made for the current size of the map.
- C85: a footprint layer whose linear_expand or linear_spread is left out or misspelt gets margins of 0 without a warning, because reading an unset XmlRpcValue yields a
  zero; a missing coordinate of a footprint vertex is 0 too. A whole number (linear_expand: 1), on the other hand, stops the node. In single layer mode the overlay layer
  does not get linear_spread_min_cost (costmap_3d.cpp:368-371), although the README lists it. The class Costmap3dLayerOutput of the README is not registered.
  unknown_cost is stored in an int8_t: 200 becomes -56 and the cells stay unknown.
- C86: with two sensor layers the planner loses obstacles of the lower one: a message to the upper layer is answered with an update over the last two areas of that layer only, and
  planner_3d undoes the previous update before it applies the next. After two messages to the upper layer an obstacle reported to the lower layer outside these areas is still in
  the costmap of the node but no longer in the costs of the planner, until the lower layer gets its next message.
- C87: cost_estim_cache_created_ stays true when the distances become wrong. A change of the parameters (cbParameter) clears the distance map to zero while a goal is pursued, and a map
  that arrives while the pose of the robot is unknown does too: until the next update plans are made with all distances zero, so nothing is reported unreachable early and the
  search has no guidance. An update that arrives while the pose is unknown changes the costs but not the distances: a goal that became reachable is still reported unreachable
  (PATH_NOT_FOUND). A goal that arrives while the pose is unknown (createCostEstimCache returns early without clearing the flag) is
  planned for with the distances of the goal before. A jump of the pose and the service forget_planning_cost clear the remembered costs but not the distances made with them. All
  are repaired by the next costmap update that arrives while the pose is known.
- C88: safety_limiter never clears the time since when the robot is stuck while predictions return early: after the obstacle is gone and the cloud is empty (allow_empty_cloud), the
  status goes on reporting it, with the summary "OK".
- C89: trajectory_tracker searches the nearest strip only 1 m ahead once a pose is done (max_search_range). If the poses are further apart, not even the next strip is tried: standing on
  the last pose of a path with poses 2 m apart the robot is told that 4 m are left, and behind a turn (or a pose given twice) GOAL is reported although the whole next stretch is left.
- C89: changing path_step while a path is followed shortens the transformed path but keeps path_step_done_: findLocalGoal starts beyond the end (undefined behaviour).
- C89: origin_raw, meant for the check without odometry prediction, is +prediction_offset seen from the already extrapolated pose, i.e. the pose extrapolated twice; GOAL can be reported
  although the measured pose is outside the tolerance.
- C89: with path_step above 1 the last pose of the path may be dropped, GOAL is then reported at the last pose kept; near the end the distance beside the path is not looked at.
- C90: the velocity command of trajectory_tracker does not account for the length of a control cycle: an ideal robot can pass a stop of its path by V*D/2 (velocity times half the period).
- C91: time_optimal_control_future_gain looks ahead by the present angular velocity, which is zero at the first command of a turn: a small turn with a long cycle goes too far by V*D/2.

## 6. Tests of the theorems

`seeded/LOG.jsonl` has one line per wrong program: the definition edited in a scratch copy, the edit, the claim
it breaks, the theorems that no longer proved, and the theorems that had to be tightened.
