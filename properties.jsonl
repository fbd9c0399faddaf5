{"id": "C01", "title": "Cyclic coordinates are normalised to one canonical representative", "statement": "Normalising a grid vector's cyclic components (signed or unsigned form) never changes the direction they denote (the result is congruent to the input modulo the resolution), always lands in the documented half-open interval ([-ceil(res/2)..floor(res/2)) signed, [0,res) unsigned), is idempotent, and two components denote the same direction iff they normalise to the same value. A zero resolution is undefined behaviour.", "quantifier": "every integer component value and every resolution", "why_tests_cant": "unit tests try a handful of angles; the claim ranges over all integers and all resolutions, odd and even", "anchors": ["planner_cspace/include/planner_cspace/cyclic_vec.h: cycleElement, cycleUnsignedElement, cycle, cycleUnsigned"]}
{"id": "C02", "title": "Grid cells never alias", "statement": "In a block-organised grid map of any size, two different valid cells are stored in two different memory slots and every valid cell's slot is inside the allocated buffer.", "quantifier": "every map size in every dimension (including sizes that are not multiples of the block width or smaller than a block), every dimension/cyclic split, every block-width exponent, every pair of valid cells", "why_tests_cant": "an exhaustive test covers only a few concrete sizes; aliasing depends on the size/block interplay", "anchors": ["planner_cspace/include/planner_cspace/blockmem_gridmap.h: block_addr, reset, operator[]"]}
{"id": "C03", "title": "A grid map behaves like a mathematical map under any history", "statement": "After any sequence of resets, fills, writes, partial clears and partial copies, reading a valid cell returns exactly what a plain map from coordinates to values would hold after the same operations.", "quantifier": "every operation sequence, every map size, every cell", "why_tests_cant": "histories are unbounded and interact with buffer re-use on reset", "anchors": ["planner_cspace/include/planner_cspace/blockmem_gridmap.h: reset, clear, operator[], clear_partially, copy_partially"]}
{"id": "C04", "title": "Partial copy and partial clear touch exactly the requested box", "statement": "copy_partially and clear_partially change a cell iff it lies in the inclusive box between the two given corners (clipped as documented), and the new value is the source cell's value / the fill value.", "quantifier": "every box, every pair of maps, every cell", "why_tests_cant": "off-by-one on an inclusive box is only visible at specific sizes", "anchors": ["planner_cspace/include/planner_cspace/blockmem_gridmap.h: clear_partially, copy_partially"]}
{"id": "C05", "title": "Map bounds check with tolerance is exact", "statement": "validate(pos, tolerance) accepts a position iff every non-cyclic coordinate keeps at least `tolerance` cells from both map edges and every cyclic coordinate is in range; an accepted position with tolerance t has every neighbour within t inside the map.", "quantifier": "every position, tolerance and map size", "why_tests_cant": "boundary conditions over all sizes", "anchors": ["planner_cspace/include/planner_cspace/blockmem_gridmap.h: validate"]}
{"id": "C06", "title": "A* only returns real paths", "statement": "Whenever the grid search succeeds, the returned path starts at one of the given start cells, ends at the goal (or, on early leave, at the best reached cell), every consecutive pair is a move offered by the search model with a non-negative finite cost, and no cell repeats.", "quantifier": "every search model (cost function, neighbourhood, heuristic), every set of starts with any non-negative initial costs, every goal, every task-batch size, every order in which parallel expansion results are merged, every queue limit, every early-leave threshold; exact arithmetic and IEEE binary32", "why_tests_cant": "a race or ordering bug shows only under particular schedules and maps", "anchors": ["planner_cspace/include/planner_cspace/grid_astar.h: search, searchImpl, findPath"]}
{"id": "C07", "title": "A* is optimal with an admissible heuristic", "statement": "With exact arithmetic, a heuristic that never over-estimates, no queue limit and no early leave, a successful single-threaded search returns a path whose start cost plus total move cost is minimal over all paths from any start to the goal.", "quantifier": "every finite search space, cost function with non-negative costs and admissible heuristic", "why_tests_cant": "optimality quantifies over all alternative paths", "anchors": ["planner_cspace/include/planner_cspace/grid_astar.h: searchImpl"]}
{"id": "C08", "title": "A* is complete", "statement": "With no queue limit, no early leave and no abort, the search reports failure only if there is no path from any start to the goal in the model's move graph, and it always terminates on a finite grid. This holds in exact arithmetic and in the float arithmetic of the code, for starts up to 2^127 and moves up to 2^102.", "quantifier": "every finite search space and model", "why_tests_cant": "absence of a path can only be compared with all paths", "anchors": ["planner_cspace/include/planner_cspace/grid_astar.h: searchImpl"]}
{"id": "C09", "title": "Planned motions never cross an occupied cell", "statement": "Every motion the 3-DoF planner's cost function accepts (non-negative cost) passes only cells inside the map whose cost is at most 99, for straight, curved and in-place-turn motions alike; every step of a path returned by the planner is such a motion; every pose of the published interpolated path lies in such a cell; and evaluating a motion never reads outside the map.", "quantifier": "every costmap, every pair of poses, every motion cache content", "why_tests_cant": "needs every costmap content", "anchors": ["planner_cspace/src/grid_astar_model_3dof.cpp: GridAstarModel3D::cost"]}
{"id": "C10", "title": "The goal distance map holds true shortest costs", "statement": "When a goal distance map has been built, each cell's value is either the unreachable value or the cost of an actual route (straight moves of up to four cells that cross no obstacle) from the goal; it is not above the cost of any route that exceeds the start cell's value by no more than the overshoot; the start cell's value is exact; cells without a route keep the unreachable value; building always ends and never reads outside the map.", "quantifier": "every costmap, goal, start, map size, batch size, heap order and thread schedule; exact arithmetic and IEEE binary32", "why_tests_cant": "correctness is relative to all paths", "anchors": ["planner_cspace/src/distance_map.cpp: fillCostmap, create"]}
{"id": "C11", "title": "Distance map state always refers to the current goal, and extending it loses nothing", "statement": "After any sequence of create and update calls, the distance values consulted by the planner were computed for the goal most recently passed in. As long as the costmap is unchanged and no reached cell is reported as changed, updating the map for any other start gives that start exactly the cost that building the map from scratch would give.", "quantifier": "every history of create/update calls with any start and goal, inside or outside the map; every sequence of starts; every thread schedule", "why_tests_cant": "needs histories mixing out-of-map goals with later updates, and arbitrary sequences of starts on arbitrary costmaps", "anchors": ["planner_cspace/src/distance_map.cpp: create, update, fillCostmap"]}
{"id": "C12", "title": "The remembered-obstacle costmap is consistent and bounded", "statement": "After any history of observations, cost updates, forget requests and clears, the cost reported for every cell is the rounded percentage of that cell's accumulated occupancy probability as of the last refresh, every value is in [0,100], and each cell depends only on observations of that cell.", "quantifier": "every sequence of observations (any position, range and content), refreshes and clears", "why_tests_cant": "the incremental dirty-window must be right for every history", "anchors": ["planner_cspace/src/costmap_bbf.cpp: CostmapBBFImpl::remember, updateCostmap, clear", "planner_cspace/include/planner_cspace/bbf.h"]}
{"id": "C13", "title": "Dynamic costmap updates never leave residue", "statement": "After any sequence of static maps and costmap updates, every planner cost equals the latest static map's cost outside the area of the update in force, and inside it the static cost combined with that update only (maximum, or replacement by non-negative values when overwriting is enabled); nothing from older maps or updates remains, an update that does not fit waits for the next map that is not newer than it, and no access leaves the map as long as the angular window of the update lies on the map.", "quantifier": "every sequence of updates with any areas and contents", "why_tests_cant": "residue appears only for particular successions of overlapping areas", "anchors": ["planner_cspace/src/planner_3d.cpp: applyCostmapUpdate, cbMap, cbMapUpdate"]}
{"id": "C14", "title": "Relocated poses are free and nearest", "statement": "When a start or goal is relocated, the result is inside the map with its margin, within the given linear and angular tolerance, has cost below the acceptable cost, and no acceptable pose has a smaller weighted distance; if there is no such pose, the same holds with cost limit 100; if there is none either, the pose is unchanged and failure is reported.", "quantifier": "every costmap, pose and tolerance", "why_tests_cant": "nearest is relative to all alternatives", "anchors": ["planner_cspace/src/planner_3d.cpp: searchAvailablePos"]}
{"id": "C15", "title": "Goal lifecycle is reported consistently", "statement": "After any sequence of goals, preemptions, cancellations, maps, costmap updates, escape triggers and planning cycles: no null goal is read, a planner with a goal is not reported done, an active action always has a goal behind it, the two actions are never active together; every goal received by an action server has exactly one of one result, being active, being pending; a goal becomes active only when it arrives in the map frame with a unit orientation, and one with an invalid orientation clears the current goal; success is reported only if the final orientation (or, in continuous mode, the position) is reached, or for a clearing goal; without a goal only empty paths are published.", "quantifier": "every interleaving of goal, tolerant-goal, preempt, and planning events", "why_tests_cant": "interleavings are unbounded", "anchors": ["planner_cspace/src/planner_3d.cpp: cbGoal, setGoal, cbPreempt, cbAction, cbTolerantAction, planPath"]}
{"id": "C16", "title": "Stale sensor data stops the robot", "statement": "While the costmap watchdog is enabled and the newest applied costmap update is older than the limit, every planning cycle publishes only empty paths and no new path is planned; with a goal (or if errors are retained) it reports DATA_MISSING.", "quantifier": "every history and clock reading", "why_tests_cant": "timing combinations", "anchors": ["planner_cspace/src/planner_3d.cpp: planPath, waitUntil"]}
{"id": "C17", "title": "Patrol visits waypoints in order, once each", "statement": "For every patrol path and every sequence of action results, goals are sent in path order without skipping or repeating a waypoint, the next one is sent only after the previous succeeded or aborted, and a new path restarts from its first waypoint.", "quantifier": "every path, every sequence of action-server states and path messages", "why_tests_cant": "interleavings of messages and results", "anchors": ["planner_cspace/src/patrol.cpp: cbPath, sendNextGoal, spin"]}
{"id": "C18", "title": "Grid and metric coordinates round-trip", "statement": "Converting a grid pose to metric and back yields the same grid pose, a metric position converts to the grid cell whose square contains it, and the conversion is defined exactly when the cell index fits in an int.", "quantifier": "every grid pose, resolution and origin (exact arithmetic)", "why_tests_cant": "ranges over all values", "anchors": ["planner_cspace/include/planner_cspace/planner_3d/grid_metric_converter.h"]}
{"id": "C19", "title": "Motion lookup is periodic in yaw and path interpolation keeps the way-points", "statement": "The motion cache returns the same motion for start yaws that differ by whole turns; an interpolated path contains every grid pose of the input whose motion is known, in order, and ends at the last pose.", "quantifier": "every path and cache content", "why_tests_cant": "ranges over all caches/paths", "anchors": ["planner_cspace/include/planner_cspace/planner_3d/motion_cache.h: find, end", "planner_cspace/src/motion_cache.cpp: interpolatePath"]}
{"id": "C20", "title": "Joint-space moves are collision-checked along the whole segment", "statement": "The 2-DoF joint planner accepts a move exactly if its target is in the map and every sampled configuration is free; the samples start at the start cell, follow the straight segment within 0.6 cells without gaps and end beside the target, with angles taken modulo full turns. A path of accepted moves that ends in a free configuration visits only free cells. The angles sent for a found path are the found cells up to full turns, step by step along the checked shortest way, ending at the requested goal.", "quantifier": "every collision map, resolution up to 1024, pair of cells and found path", "why_tests_cant": "all maps and all pairs of cells in binary32 arithmetic", "anchors": ["planner_cspace/src/grid_astar_model_2dof_joints.cpp: cost, costEstim", "planner_cspace/src/planner_2dof_serial_joints.cpp: constructor (collision map), makePlan"]}
{"id": "C21", "title": "Costmap layer regions are exact boxes", "statement": "For regions of non-negative size: merging two update regions yields the smallest box containing both; normalising yields the part inside the map; block transfer copies exactly the cells of the region and nothing else; empty regions act as empty. Merging two non-empty regions keeps the newer time stamp.", "quantifier": "every pair of regions, map sizes, contents", "why_tests_cant": "all integer boxes incl. negative corners", "anchors": ["costmap_cspace/include/costmap_cspace/costmap_3d_layer/base.h: UpdatedRegion::merge, normalize, bitblt"]}
{"id": "C22", "title": "Layered costmap cells are addressed without aliasing", "statement": "In a 3-D costmap message and in the inflation template, different (x,y,yaw) cells inside the size map to different array elements inside the array, and writing one never changes another.", "quantifier": "every size and pair of cells", "why_tests_cant": "all sizes", "anchors": ["costmap_cspace/include/costmap_cspace/costmap_3d_layer/base.h: CSpace3DMsg::address", "costmap_cspace/include/costmap_cspace/cspace3_cache.h"]}
{"id": "C23", "title": "Obstacle inflation covers the footprint", "statement": "For every obstacle cell of an input map that lies in the costmap, every costmap pose at which the template (footprint plus margins) covers that obstacle gets at least the inflated cost: always when the input map has another resolution; with equal resolution for templates that do not grow away from the centre along an axis and for poses over the input map's area.", "quantifier": "every input map, footprint template and pose", "why_tests_cant": "the neighbour-masking shortcut fails only for particular shapes", "anchors": ["costmap_cspace/include/costmap_cspace/costmap_3d_layer/footprint.h: generateSpecifiedCSpace"]}
{"id": "C24", "title": "Inflation writes nothing spurious", "statement": "After drawing an input map, a cell's cost is its previous cost (reset to unknown where OVERWRITE mode clears), or the contribution of an obstacle whose template covers it, whichever is larger; 0 instead of unknown where the input map says free; unknown where keep_unknown is set and both were unknown. No other cell changes.", "quantifier": "every input map and template", "why_tests_cant": "frame property over all cells", "anchors": ["costmap_cspace/include/costmap_cspace/costmap_3d_layer/footprint.h: generateSpecifiedCSpace, clearTravelableArea"]}
{"id": "C25", "title": "Overlay updates do not depend on history", "statement": "After any sequence of base maps and overlay messages, every layer shows, at each cell of its current update area, its latest message drawn over the map below it; so at a cell in the update area of all layers up to a given one the cost is a function of the last base map and the latest message of each of these layers only. A new base map makes every cell current.", "quantifier": "every message history and layer stack", "why_tests_cant": "ghost obstacles need particular histories", "anchors": ["costmap_cspace/include/costmap_cspace/costmap_3d_layer/base.h: processMapOverlay, updateChainEntry"]}
{"id": "C26", "title": "Applying costmap updates reproduces the node's costmap", "statement": "Every update message equals the node's costmap in the area it describes, and the area contains the newly updated region and the one sent before. A client that patches its copy with each published message has exactly the node's costmap after every overlay message, for any stack static output / layers / update output and any history in which message areas meet the map and messages for the last layer draw inside their own area.", "quantifier": "every history of overlay messages", "why_tests_cant": "incremental protocols fail on particular histories", "anchors": ["costmap_cspace/include/costmap_cspace/costmap_3d_layer/output.h: generateUpdateMsg"]}
{"id": "C27", "title": "Overlays received before the base map are not lost", "statement": "Overlay maps that arrive before the base map are buffered and processed, in arrival order, when the base map arrives.", "quantifier": "every interleaving", "why_tests_cant": "interleavings", "anchors": ["costmap_cspace/src/costmap_3d.cpp: cbMap, cbMapOverlay"]}
{"id": "C28", "title": "Unknown handling and propagation stop", "statement": "The unknown-handling layer replaces every unknown cell in the updated area by the configured cost and leaves all other cells; the stop-propagation layer makes children see an all-unknown map regardless of parents.", "quantifier": "every map, region and cost", "why_tests_cant": "all maps", "anchors": ["costmap_cspace/include/costmap_cspace/costmap_3d_layer/unknown_handle.h", "costmap_cspace/include/costmap_cspace/costmap_3d_layer/stop_propagation.h"]}
{"id": "C29", "title": "Accumulated point clouds expire", "statement": "After a cloud is pushed, the accumulator holds that cloud and exactly those earlier clouds that are not older than the hold time, in order, without undefined behaviour.", "quantifier": "every sequence of pushed clouds and times", "why_tests_cant": "depends on expiry patterns in the list", "anchors": ["costmap_cspace/include/costmap_cspace/pointcloud_accumulator.h: push"]}
{"id": "C30", "title": "Sensor points land in the cell that contains them", "statement": "After the accumulated clouds are drawn, a cell of the local map is occupied exactly if it contains a sensor point within the height limits, and free otherwise; points less than one cell outside the lower or left edge count into the first row or column. The window is centred on the robot to within one cell.", "quantifier": "every point and map parameters", "why_tests_cant": "all coordinates incl. negative fractions", "anchors": ["costmap_cspace/src/laserscan_to_map.cpp: cbScan", "costmap_cspace/src/pointcloud2_to_map.cpp"]}
{"id": "C31", "title": "The local window of a large map is exact", "statement": "Each cell of the cropped local map equals the cell of the large map shifted by the nearest whole number of cells (the same square when the grids are aligned), or unknown if outside the large map, apart from the cells the round/surrounded options overwrite; simulated occlusion only turns cells behind an obstacle into unknown.", "quantifier": "every large map, robot position and window size", "why_tests_cant": "all positions", "anchors": ["costmap_cspace/src/largemap_to_map.cpp"]}
{"id": "C32", "title": "Point-in-polygon is well defined", "statement": "The footprint containment test does not depend on which vertex the polygon starts at or on its orientation, is translation invariant, is exact for axis-aligned rectangles and, off the boundary, for convex polygons, and never contains a point outside the convex hull of the vertices.", "quantifier": "every polygon and point (exact arithmetic)", "why_tests_cant": "all polygons", "anchors": ["costmap_cspace/include/costmap_cspace/polygon.h: inside", "safety_limiter/src/safety_limiter.cpp: polygon::inside"]}
{"id": "C33", "title": "The limiter never amplifies a command", "statement": "For every request with finite components, every velocity command published by the safety limiter has the planar linear and yaw components no larger in magnitude than the requested ones, the same sign (or zero), and linear/angular speed within the configured maxima (up to the rounding of hypot).", "quantifier": "every command (IEEE doubles), limit ratio and configuration", "why_tests_cant": "floating-point corner cases", "anchors": ["safety_limiter/src/safety_limiter.cpp: limit, limitMaxVelocities, cbTwist"]}
{"id": "C34", "title": "No cloud, no motion", "statement": "Unless safety is explicitly disabled within the disable timeout, a zero command is published for every request while no valid point cloud is available or the watchdog has expired.", "quantifier": "every history of clouds, commands, timers, watchdog resets, disables", "why_tests_cant": "event interleavings", "anchors": ["safety_limiter/src/safety_limiter.cpp: cbTwist, cbPredictTimer, cbWatchdogTimer, cbWatchdogReset, cbDisable"]}
{"id": "C35", "title": "The collision limit is held", "statement": "After a prediction limits the speed, every command published until the hold time has elapsed is limited at least as strongly, unless safety is disabled or the limiter is reconfigured.", "quantifier": "every history of events and times", "why_tests_cant": "event interleavings", "anchors": ["safety_limiter/src/safety_limiter.cpp: cbPredictTimer, cbTwist, cbParameter"]}
{"id": "C36", "title": "The limited speed allows stopping before the obstacle", "statement": "If the limiter scales a command because of a predicted collision at distance d, then moving at the scaled speed for the control delay and then braking at the configured deceleration stops within d minus the margin, for commands up to the speed the prediction horizon was configured for; without margins the limit is exact, so it is never tighter than needed, and an axis that stands still never limits. Without a transform or a permitted empty cloud the robot is stopped.", "quantifier": "every positive acceleration, delay, margin, distance and speed (exact arithmetic)", "why_tests_cant": "continuous domain", "anchors": ["safety_limiter/src/safety_limiter.cpp: predict"]}
{"id": "C37", "title": "Velocity and acceleration limits hold for every float", "statement": "The velocity/acceleration limiter's output is always finite and within the velocity limit once reached; for a target that is not NaN and a non-negative time step the output never differs from the previous one by more than acc*dt (as rounded), and a NaN target stops the output.", "quantifier": "every float32 input history", "why_tests_cant": "NaN/inf/rounding corner cases", "anchors": ["trajectory_tracker/include/trajectory_tracker/basic_control.h: clip, VelAccLimitter::set, increment"]}
{"id": "C38", "title": "The tracker stops when it has no usable path", "statement": "For every history of paths, odometry and timeouts, in every control cycle without a usable path, without localisation, or beyond the stop distance from the path while following it, and on an odometry timeout, exactly a zero command and the status NO_PATH or FAR_FROM_PATH are published; all published commands are finite numbers.", "quantifier": "every event history", "why_tests_cant": "event interleavings", "anchors": ["trajectory_tracker/src/trajectory_tracker.cpp: control, cbOdomTimeout, getTrackingResult"]}
{"id": "C39", "title": "Path import keeps the route", "statement": "Importing a path message keeps the first pose and the final heading, keeps every pose at least epsilon away from the place where the robot currently stands on the route, collapses each in-place turn to its first pose and its final heading, never yields three consecutive poses at one place, leaves a spaced message unchanged, and importing an exported path changes nothing.", "quantifier": "every path message and epsilon", "why_tests_cant": "all sequences", "anchors": ["trajectory_tracker/include/trajectory_tracker/path2d.h: Path2D::fromMsg"]}
{"id": "C40", "title": "Local goals split a path at every stop", "statement": "Enumerating local goals terminates for every path and range without reading outside the path, returns strictly increasing positions, and returns exactly the in-place turns and those switch-backs that do not directly follow a returned position.", "quantifier": "every path", "why_tests_cant": "termination and completeness over all paths", "anchors": ["trajectory_tracker/include/trajectory_tracker/path2d.h: findLocalGoal, enumerateLocalGoals"]}
{"id": "C41", "title": "The recorder stores spaced poses only", "statement": "Consecutive recorded poses are always farther apart than the configured interval, the first pose observed after start or after a served clear request is always recorded, the newest pose is always recorded or within the interval of the newest recorded one, and every published path is spaced the same way.", "quantifier": "every pose history", "why_tests_cant": "all histories", "anchors": ["trajectory_tracker/src/trajectory_recorder.cpp: spin, clearPath"]}
{"id": "C42", "title": "Joystick interrupt has priority and hands back control", "statement": "While the interrupt button is held and the last joystick message is not older than the timeout, no navigation command is forwarded; otherwise the navigation command is forwarded unchanged; every joystick command is the axis value times the configured gains; releasing the button re-issues the last navigation command once; no message length or parameter makes the node read outside an array.", "quantifier": "every interleaving of joystick and command messages, any button/axis arrays", "why_tests_cant": "interleavings and array lengths", "anchors": ["joystick_interrupt/src/joystick_interrupt.cpp: cbJoy, cbTwist"]}
{"id": "C43", "title": "The joystick multiplexer forwards exactly the selected input", "statement": "At every moment exactly one input is selected; messages of the selected input are forwarded unchanged and in order, others dropped; input 1 is selected only while the button was pressed in the last joystick message and that message is younger than timeout plus one timer period.", "quantifier": "every interleaving", "why_tests_cant": "interleavings", "anchors": ["joystick_interrupt/src/joystick_mux.cpp"]}
{"id": "C44", "title": "The slip filter stays well-behaved", "statement": "For positive (or infinite) measurement noise and non-negative process noise the 1-D Kalman filter stays finite, its sigma is never negative, a measurement never increases it and strictly reduces a positive one, the estimate is the inverse-variance weighted mean and stays between the prior estimate and the measurement, and predictions add up.", "quantifier": "every history of predictions with non-negative noise and measurements (exact arithmetic)", "why_tests_cant": "all histories", "anchors": ["track_odometry/include/track_odometry/kalman_filter1.h"]}
{"id": "C45", "title": "Odometry integration telescopes and the height filter decays", "statement": "With a positive odometry sigma: if IMU and wheel odometry agree, every published position equals the raw position of the same message (so increments telescope and none is lost during IMU outages), messages received while the IMU is unavailable leave no trace, the height filter never increases the magnitude of z for sampling periods up to twice its time constant, and a wheel turn rate that is always biased to one side gives a slip estimate of that side's sign.", "quantifier": "every history of odometry/IMU messages", "why_tests_cant": "all histories", "anchors": ["track_odometry/src/track_odometry.cpp: cbOdom, cbImu"]}
{"id": "C46", "title": "Saved maps reload to the same map", "statement": "Saving an occupancy map to an image and loading it back with the thresholds written next to it yields the same free/occupied/unknown classification in the same cells, and the files of different floors never collide.", "quantifier": "every map", "why_tests_cant": "all sizes/contents", "anchors": ["map_organizer/src/save_maps.cpp: mapCallback"]}
{"id": "C47", "title": "The selected floor is the one published", "statement": "For every history of map arrays and floor requests, the last published map is the one of the last in-range requested floor, with its height zeroed and broadcast as the frame offset.", "quantifier": "every message history", "why_tests_cant": "interleavings", "anchors": ["map_organizer/src/select_map.cpp"]}
{"id": "C48", "title": "Floor maps from point clouds say what the cloud contains", "statement": "For every cloud (of fewer than 2^31 map cells) the node stays inside its maps. On a floor at height i a column is occupied iff it has a point above the floor height plus tolerance and up to the robot height, free iff it has ground points and no such point, unknown otherwise. Candidate floors are the local maxima of the number of free columns that pass the area filter; a run of neighbouring candidate heights is merged into its lowest one, which is free where any of the run is. The published map is occupied exactly where the merged one is, and free exactly within r <= 5 cells of a merged free cell whose nearest occupied cell is at least r+1 away. A floor is published iff its merged free area is not too small, as long as its height in cells is recovered exactly from metres.", "quantifier": "every point cloud, every parameter setting", "why_tests_cant": "The maps depend on all points of the cloud and on all heights at once; a test covers single clouds.", "anchors": ["map_organizer/src/pointcloud_to_maps.cpp: cbPoints"]}
{"id": "C49", "title": "Smoothing filter has unit DC gain and converges", "statement": "The low-pass filter leaves a constant input equal to its initial value unchanged and converges geometrically to any constant input for every positive time constant.", "quantifier": "every initial value, input, positive time constant (exact arithmetic), number of steps", "why_tests_cant": "unbounded steps", "anchors": ["trajectory_tracker/include/trajectory_tracker/filter.h"]}
{"id": "C50", "title": "Compatibility gate", "statement": "A node starts iff the configured compatibility level is between the supported and the current level, uses the new topic names iff the level is the current one, and logs a deprecation message iff it runs on an older level.", "quantifier": "every level", "why_tests_cant": "all ints", "anchors": ["neonavigation_common/include/neonavigation_common/compatibility.h"]}
{"id": "C51", "title": "Temporary escape search is bounded to the map and picks a reachable goal", "statement": "For a robot standing at least one cell more than the escape range away from the far borders of the map and a search range of at least one cell, the temporary-escape search reads and writes only cells of the map and of its local buffer; nearer to the far borders it does not. The temporary goal it picks is a free pose that is locally reachable, within the escape range, not closer than the minimum, and with the smallest static distance to the original goal among those; the original goal is taken back exactly if it is free and locally reachable.", "quantifier": "every robot position, escape range, costmap and distance map", "why_tests_cant": "edge positions", "anchors": ["planner_cspace/src/planner_3d.cpp: updateTemporaryEscapeGoal"]}
{"id": "C52", "title": "Jump detection", "statement": "A localisation jump is reported exactly when the corrected displacement since the previous accepted sample exceeds a threshold; the first sample and samples without transform never report a jump.", "quantifier": "every transform history", "why_tests_cant": "histories", "anchors": ["planner_cspace/include/planner_cspace/jump_detector.h"]}
{"id": "C53", "title": "Arrival times never decrease along a path", "statement": "The estimated arrival times of a path are one per pose, start with the given time, never decrease, and on a route without turns in place the last one is the start plus length over speed, the length being that of the polyline through the poses.", "quantifier": "every path with normalised headings and positive speeds", "why_tests_cant": "all paths", "anchors": ["trajectory_tracker/include/trajectory_tracker/path2d.h: getEstimatedTimeOfArrivals"]}
{"id": "C54", "title": "No command before a prediction", "statement": "No command is passed before the obstacle prediction has been run on a point cloud since start or since the last point-cloud timeout.", "quantifier": "every event history", "why_tests_cant": "event interleavings", "anchors": ["safety_limiter/src/safety_limiter.cpp: cbTwist, cbCloud, cbPredictTimer"]}
{"id": "C55", "title": "Escape from a collision", "statement": "If the robot is already in collision, the prediction either stops it completely or does not limit it; it is stopped exactly if some predicted pose is still colliding after more than the escape distance or angle.", "quantifier": "every command, cloud and configuration", "why_tests_cant": "all clouds and commands", "anchors": ["safety_limiter/src/safety_limiter.cpp: predict"]}
{"id": "C56", "title": "The goal is reported only at the goal", "statement": "The tracker reports GOAL only in a control cycle with a usable path, at the end of the path (no further switch-back), with remaining distance, heading and configured velocity tolerances met and not farther from the path than the stop distance. A new path is followed from its beginning, and a switch-back that has been reached is left behind.", "quantifier": "every event history and measurement", "why_tests_cant": "event histories and all measurements", "anchors": ["trajectory_tracker/src/trajectory_tracker.cpp: getTrackingResult, control"]}
{"id": "C57", "title": "Successive tracker commands respect the acceleration limits", "statement": "A published tracker command is a stop or differs from the previously published one by at most the acceleration limits times the time step (two steps for the linear velocity when it is also limited by the angular velocity). Turning in place never adds linear speed. While following, the command is zero exactly within the stop tolerances and otherwise the limited reference.", "quantifier": "every event history, every non-NaN reference", "why_tests_cant": "event histories, rounding", "anchors": ["trajectory_tracker/src/trajectory_tracker.cpp: control", "trajectory_tracker/include/trajectory_tracker/basic_control.h: VelAccLimitter"]}
{"id": "C58", "title": "The inflation template follows the distance to the footprint", "statement": "For every robot offset and heading the template cost is 100 if the obstacle is covered by the footprint or closer than the expansion, falls linearly to the minimum cost over the spread, and is 0 beyond; and the template is large enough that nothing outside its range would have a cost.", "quantifier": "every polygon footprint, expansion, spread, minimum cost, resolution, offset and heading (exact arithmetic)", "why_tests_cant": "all footprints, headings and offsets", "anchors": ["costmap_cspace/include/costmap_cspace/costmap_3d_layer/footprint.h: setMapMetaData", "costmap_cspace/include/costmap_cspace/polygon.h: dist, dist_linestrip, radius, move"]}
{"id": "C59", "title": "The nearest point query returns the nearest strip of the path", "statement": "For at least two poses (the first strip being within the search range, if one is given) the query succeeds without reading outside the path, never returns the first pose, the distance returned is that of a point of the strip ending at the returned pose, and no point of the searched part of the path is nearer by more than the tie-breaking epsilon per later strip. The epsilon errors can add up without bound, and a tie at a corner can go to the later strip.", "quantifier": "every path, sub-range, target, search range and epsilon (exact arithmetic)", "why_tests_cant": "all paths and targets; ties", "anchors": ["trajectory_tracker/include/trajectory_tracker/path2d.h: findNearestWithDistance", "trajectory_tracker/include/trajectory_tracker/eigen_line.h: lineStripDistanceSigned"]}
{"id": "C60", "title": "The remaining distance is the length of the path ahead", "statement": "For a position on the path, the remaining distance is the length of the way along the path to the last pose of the range; beyond the last pose it is minus the overshoot; with a single pose it is zero.", "quantifier": "every path, sub-range and position (exact arithmetic)", "why_tests_cant": "all paths and positions", "anchors": ["trajectory_tracker/include/trajectory_tracker/path2d.h: remainedDistance"]}
{"id": "C61", "title": "The curvature of a path is the inverse of its signed radius", "statement": "On a circle the reported curvature is the inverse of the radius, positive when followed counter-clockwise and negative clockwise, for any spacing of the poses and any search range; it is zero on a straight line; with only two poses it is that of the arc joining them with their headings; in general it is the mean over the consecutive triples up to the first pose beyond the search range.", "quantifier": "every path of two or more poses, radius, pose spacing and range (exact arithmetic)", "why_tests_cant": "all radii, spacings, lengths", "anchors": ["trajectory_tracker/include/trajectory_tracker/path2d.h: getCurvature", "trajectory_tracker/include/trajectory_tracker/eigen_line.h: curv3p", "trajectory_tracker/include/trajectory_tracker/average.h"]}
{"id": "C62", "title": "Planning continues from a free stretch of the previous path", "statement": "When a plan continues the previous path, the kept part is a contiguous stretch of that path: it starts at the strip closest to the robot (or at the first pose if that is closest), none of its poses lies in an occupied cell, its reported length is that of its polyline, and the new plan starts in the cell of the pose that follows it. That pose is the one before the first reversal at a cell centre that the robot reaches between the two prediction times, otherwise the first cell centre reached after the prediction time, otherwise the last pose. Nothing is kept if the robot is farther from the path than the stop distance or a pose of the stretch is in an occupied cell, and only then (up to the tolerance of the nearest point search). Nothing outside the map is read while the previous path is inside it. The start pose itself is not checked and need not be a cell centre.", "quantifier": "every previous path, robot pose, costmap, speeds and prediction times", "why_tests_cant": "the choice depends on the whole path and all arrival times", "anchors": ["planner_cspace/src/start_pose_predictor.cpp: process", "planner_cspace/src/start_pose_predictor.cpp: buildResults"]}
{"id": "C63", "title": "A search starts at exactly the free cells around the robot", "statement": "The poses a search starts from are: with sub-cell starts, exactly the free cells inside the map margin whose centre is at most one cell away from the robot (in its orientation), each at the cost of the distance plus its weighted costmap value; otherwise the cell of the robot if it is free; if there are none, the relocated cell. A robot in a free cell is never relocated, and no start is occupied unless the previous path is continued. The plan is reported as finishing exactly if one of these poses (the robot itself when the previous path is continued) is within the tolerances of the goal, orientations compared up to full turns, and the start as occupied exactly if the robot is next to the border, the previous path cannot be continued, or no free cell is found.", "quantifier": "every robot and goal pose, costmap, previous path, tolerance and option", "why_tests_cant": "exactness over all positions within a cell and all costmaps", "anchors": ["planner_cspace/src/planner_3d.cpp: buildStartPoses", "planner_cspace/src/planner_3d.cpp: isPathFinishing"]}
{"id": "C64", "title": "The planner's preference for the last path reflects exactly that path", "statement": "After any history of maps, goals, map updates and plans that ends with a plan, the preference level of every cell and heading of the map is determined by the distance to that path's pieces having the heading at an end: 0 within the expansion distance, 100 beyond expansion plus fading distance, linear (rounded) in between, and nothing of earlier paths is left. A new map, a new goal or an obstacle reported within the expansion distance of the path removes the preference completely, and obstacles elsewhere do not.", "quantifier": "every history of map, goal, update and plan events; every path whose consecutive points are at most range + 4 cells apart; every cell, heading and parameter set with positive fading distance", "why_tests_cant": "leftovers of earlier paths and cells skipped by the bounding boxes appear only for particular histories and path shapes", "anchors": ["planner_cspace/src/planner_3d.cpp: makePlan, clearHysteresis, cbMap, cbMapUpdate, createCostEstimCache", "planner_cspace/include/planner_cspace/cyclic_vec.h: distLinestrip2d"]}
{"id": "C65", "title": "The planner's moves are exactly the drivable ones, in every direction", "statement": "For every start heading the 3D planner searches with exactly these moves within its range: turns in place, straight moves whose slope is within the aspect limit, and curves. Each curve follows a circular arc that is tangent to both headings, turns less than a quarter, has at least the minimum radius and ends within 3/4 of a cell of both cells. Turning the map by a quarter or mirroring it turns or mirrors the moves. No cached value outside of the tables is read.", "quantifier": "every resolution, number of headings, range, aspect limit and minimum radius; every start heading and displacement", "why_tests_cant": "a wrong sign or boundary shows only for particular headings, displacements and parameters", "anchors": ["planner_cspace/src/motion_primitive_builder.cpp: MotionPrimitiveBuilder::build", "planner_cspace/src/rotation_cache.cpp: RotationCache::reset", "planner_cspace/include/planner_cspace/cyclic_vec.h: rotate"]}
{"id": "C66", "title": "Published joint trajectories keep the joint speed limits, take the requested time and end at the last command", "statement": "Whatever the history of joint states and commands, a trajectory published by the 2-DoF joint planner starts at the current angles, never requires a joint to move faster than the slower limit, passes its points along the configured direction with one velocity and stops at the end. A new command is planned at once and takes the requested time, or longer if the joints are too slow; later replans keep the velocity of the command and wait for the interval. As long as all commands list the joints in the same places, trajectories end at the angles of the last command, or hold the current angles if no path exists. Complete messages cause no undefined behaviour, except: a first command of zeros, a command for the current angles, a repetition with the joints in another order.", "quantifier": "every history of joint states and commands, every search result for each of them, every limit, interval and velocity mode", "why_tests_cant": "the failing histories and the limit between any two points depend on unbounded histories and paths", "anchors": ["planner_cspace/src/planner_2dof_serial_joints.cpp: cbJoint, cbTrajectory, replan"]}
{"id": "C67", "title": "The limiter tests the robot's outline along the commanded arc, and stops before an obstacle in the way", "statement": "A predicted pose counts as colliding exactly if a cloud point in the height range lies inside the footprint of the robot after driving that long along the commanded arc; restricting the test to points within the footprint radius loses none (except points exactly at that radius). Hence a rectangular robot that drives straight towards a point in its way, with steps shorter than the robot, at a speed within the configured one, is limited such that after the reaction time and braking it stands before the point, whatever other points there are.", "quantifier": "every footprint, command, cloud, height range and downsampling; for the straight drive every rectangle, speed, obstacle and parameters with enough horizon", "why_tests_cant": "a wrong order of rotation and translation or a too small search radius shows only for particular commands, footprints and points", "anchors": ["safety_limiter/src/safety_limiter.cpp: SafetyLimiterNode::predict, cbParameter, polygon::inside"]}
{"id": "C68", "title": "The limiter's prediction tests the clouds received since the last prediction, where they are", "statement": "If point clouds arrived since the last prediction, the next prediction tests exactly their points, in order of arrival, transformed once into the robot's frame; clouds from before the last prediction or time-out are forgotten, and without any cloud nothing is tested. A further prediction without a new cloud, however, transforms the already transformed points again.", "quantifier": "every history of clouds, predictions, transformations and time-outs", "why_tests_cant": "depends on the interleaving of clouds and timer and on the robot's pose in the fixed frame", "anchors": ["safety_limiter/src/safety_limiter.cpp: cbCloud, cbPredictTimer, predict"]}
{"id": "C69", "title": "The path server publishes the requested file and its edits, marker by marker", "statement": "As long as every requested file can be opened and has poses, no sequence of requests and marker feedback fails, and there is exactly one marker per pose: dragging marker i replaces pose i (published on release), Delete removes exactly pose i, Add doubles it, and every message carries the present path. A requested file is published unchanged without smoothing; smoothing keeps the first position, the number of poses and everything but positions, and with a step of at least 1/2 stays in every box that contains the file's path.", "quantifier": "every sequence of requests and feedback, every file, marker and smoothing step", "why_tests_cant": "an index that is off, or a marker that outlives its pose, shows only after particular edit histories", "anchors": ["trajectory_tracker/src/trajectory_server.cpp: ServerNode::change, processFeedback, updateIM", "trajectory_tracker/include/trajectory_tracker/filter.h: Filter"]}
{"id": "C70", "title": "Simulated occlusion hides what is behind obstacles, and only that", "statement": "A cell of the local map becomes unknown by simulated occlusion only if the line of sight from the robot to it passes through an obstacle's cell, at least one cell from the robot and more than one cell before it; cells within two cells of the robot and cells with a free line of sight are shown as they are. A cell whose line of sight runs half a cell long through an obstacle that is shown becomes unknown. Of obstacles that hide each other, those with smaller addresses decide. No map leads to an access outside of the window.", "quantifier": "every window size, local map, cell and obstacle", "why_tests_cant": "the table is built by sampling lines to every cell; a wrong sample shows only for particular pairs of cells", "anchors": ["costmap_cspace/src/largemap_to_map.cpp: LargeMapToMapNode::LargeMapToMapNode, publishMap"]}
{"id": "C71", "title": "The planner's status tells the outcome of each planning cycle, and giving up follows the retry limit", "statement": "Whenever the planner has a map, a goal, a robot pose and a fresh costmap and is not finishing, a planning cycle publishes one path and then its status: an empty path with IN_ROCK or PATH_NOT_FOUND if the start or the goal is blocked; during a temporary escape PATH_NOT_FOUND exactly if the escape does not improve; otherwise IN_ROCK and no path for an occupied start, PATH_NOT_FOUND if the goal cannot be reached or the search fails, and GOING_WELL with the found path. Exactly if more tries were blocked than max_retry_num allows (and it is not -1), the goal is dropped and the active action aborted; blocked tries are counted one by one. A goal outside of the map (or with the robot outside) is aborted at once and leaves no goal behind.", "quantifier": "every configuration, every history of events, every outcome of the searches of a cycle", "why_tests_cant": "the error of a cycle depends on flags, counters and escape states left behind by earlier events", "anchors": ["planner_cspace/src/planner_3d.cpp: planPath, makePlan, createCostEstimCache, setGoal, cbAction", "planner_cspace/include/planner_cspace/planner_3d/temporary_escape.h: temporaryEscapeStatus2PlannerErrorStatus"]}
{"id": "C72", "title": "The projected frame lies at the foot of the perpendicular and keeps the heading", "statement": "The projected frame that tf_projection publishes has its origin at the point of the projection surface's xy plane nearest to the source (unless postures are aligned to the source: then to the source turned about the surface's origin until it stands upright). With project_posture its z axis is the normal of the surface and its heading is the source's; without, its posture is the source's; with flat its z axis is the parent's and its heading and origin do not change. The result is a rigid transform in every mode, projecting it again changes nothing, and it is broadcast as static exactly if the source is static, otherwise with the source's stamp plus the tolerance.", "quantifier": "every setting, stamp, posture of the source and posture of the surface", "why_tests_cant": "postures form a continuum; tests check a few poses", "anchors": ["track_odometry/src/tf_projection.cpp: projectTranslation", "track_odometry/src/tf_projection_node.cpp: TfProjectionNode::process"]}
{"id": "C73", "title": "The cloud made from meshes lies on their triangles, evenly and with the wanted density", "statement": "The cloud that obj_to_pointcloud makes is, file by file in the order of the comma-separated names, the points of the .pcd files and points on the triangles of the .obj files, scaled and moved by the offset; other names add nothing. A triangle gets its scaled area times points_per_meter_sq points, rounded up or down (up exactly if a draw is below the fraction), and its points are spread evenly. There is no cloud exactly if no name is given, a file cannot be read, or a face is not a triangle. Files whose faces refer to their own vertices never lead to undefined behaviour.", "quantifier": "every list of names, content of the files, sequence of draws in [0,1], scale, offset and density >= 0", "why_tests_cant": "the sampling is random and meshes are arbitrary", "anchors": ["obj_to_pointcloud/src/obj_to_pointcloud.cpp: split, ObjToPointcloudNode::convertObj"]}
{"id": "C74", "title": "The make_plan service returns cheapest obstacle-free plans and refuses only with reason", "statement": "A plan returned by make_plan leads from the requested start to the requested goal (relocated if occupied) by straight hops not longer than the search range; no cell of the map that it passes is an obstacle, neither is the cell of any pose of the interpolated plan; with one search task no such way has a smaller cost (weighed length plus mean cell cost). The service always answers. It refuses only if there is no pose to start or end at, the poses taken are the same or differ in orientation, or no way exists between them.", "quantifier": "every costmap of costs 0 to 100, map size, range, weights >= 0, tolerances, start and goal, number of search tasks, schedule and order of the queue (optimality: one task)", "why_tests_cant": "optimality and unreachability speak about all routes of all maps; the answer may depend on the schedule of the threads", "anchors": ["planner_cspace/src/planner_3d.cpp: Planner3dNode::cbMakePlan", "planner_cspace/src/grid_astar_model_3dof.cpp: GridAstarModel2D::cost, costEstim, searchGrids", "planner_cspace/include/planner_cspace/grid_astar.h: GridAstar::search"]}
{"id": "C75", "title": "The simulated robot's odometry follows the commands", "statement": "Each odometry message of the simulated robot reports the velocity in force (the last command, or rest after a start or a newly set pose) and a pose reached from the previous one by moving with that velocity for one cycle; the heading is the sum of the reported turns; between two messages the robot is never further than the reported speeds, hence any speed limit of the commands, account for; it stays within the sum of speed times turning rate times the squared cycle of a robot that follows the commands exactly; a pose that is set is reported as it is and kept, and one in an unknown frame changes nothing. A lost command source does not stop it.", "quantifier": "every history of commands, set poses and cycles, all velocities and poses", "why_tests_cant": "the bounds speak about all histories and any number of cycles", "anchors": ["planner_cspace/src/dummy_robot.cpp: DummyRobotNode::cbTwist, cbInit, spin"]}
{"id": "C76", "title": "Tied maps are complete and in order", "statement": "If every file listed for tie_maps describes a map (readable, with resolution, negate, thresholds, origin and an image that loads), the node publishes each map under its number and one array with all of them in the order of the list, with the height as the z of the origin (0 if not given), the requested frame and the image taken relative to the directory of its file; otherwise it ends without an array, having published exactly the maps before the first bad file. An array that is published is never a part of the maps.", "quantifier": "every list of file names, contents of the files, image loader and version of yaml-cpp", "why_tests_cant": "all lists, contents and positions of the failing file", "anchors": ["map_organizer/src/tie_maps.cpp: TieMapNode::TieMapNode"]}
{"id": "C77", "title": "Poses are republished in the requested frame", "statement": "For each pose sent to pose_transform that can be transformed, the node publishes the same pose with its covariance in the requested frame, in the order of arrival; poses that cannot be transformed are dropped.", "quantifier": "every sequence of poses, transforms and lookup failures", "why_tests_cant": "all sequences and transforms", "anchors": ["map_organizer/src/pose_transform.cpp: PoseTransformNode::cbPose, main"]}
{"id": "C78", "title": "The planner plans again exactly when there is a reason", "statement": "Between two plannings planner_3d looks at its state again and again. It plans at a look if and only if the planning period (or, after a path with a switch-back, the longer wait for it) has passed since the last planning, the robot pose has jumped, a costmap that has just arrived shows an obstacle on the last path, or the robot has come to the switch-back point within the goal tolerances; a look that does not plan changes nothing and is never later than the period allows. The longer wait is taken only for a path that is driven both forward and backward, and the switch-back point is the end of the first segment that is driven against the direction of all segments before it (segments of up to a millimetre do not count).", "quantifier": "every path, every sequence of looks (map, jump, costmap, pose, time) and configuration with an angular tolerance of at most a half turn", "why_tests_cant": "all paths, schedules and arrival times of costmaps", "anchors": ["planner_cspace/src/planner_3d.cpp: waitUntil, spin, getSwitchIndex, planPath (1609, 1690-1696)"]}
{"id": "C79", "title": "The ends of the two links keep clear of each other along every planned motion", "statement": "The collision test of the joint planner reports a configuration exactly if the disc at the end of one link overlaps the disc at the end or at the joint of the other. Along the whole motion sent to the joints - at every point between the sent angles, not only at the tested cells - these discs do not overlap, up to the way the ends move when the joints turn by 1.6 cells of the grid: after every search, and without a search if the goal is less than half a turn away.", "quantifier": "all link geometries with whole gains, resolutions from 2 to 1024 cells per turn, costs, start and goal angles, found paths, and every point of the motion", "why_tests_cant": "a continuum of configurations along all motions, all geometries", "anchors": ["planner_cspace/src/planner_2dof_serial_joints.cpp: LinkBody::end, LinkBody::isCollide, makePlan", "planner_cspace/src/grid_astar_model_2dof_joints.cpp: cost"]}
{"id": "C80", "title": "The joint planner refuses a goal exactly if there is no way, and sends only ways that keep clear", "statement": "For start and goal angles within one turn, planning is never undefined. Without queue limit and cancellation it always ends, and it refuses exactly if the start or the goal collides or no sequence of collision-free moves of the grid leads from one to the other. Whatever the schedule of the threads, the queue limit and a cancellation, a plan that is sent after a search starts at the current angles, ends at the goal up to full turns, and keeps the ends of the links clear of each other all the way.", "quantifier": "all resolutions from 2 to 1024, link geometries with whole gains, weights, search ranges, start and goal angles, thread schedules, batch sizes, queue limits and cancellations", "why_tests_cant": "absence of a way can only be compared with all ways; all schedules and geometries", "anchors": ["planner_cspace/src/planner_2dof_serial_joints.cpp: makePlan, cbProgress", "planner_cspace/src/grid_astar_model_2dof_joints.cpp", "planner_cspace/include/planner_cspace/grid_astar.h: searchImpl"]}
{"id": "C81", "title": "A planning cycle finds a drivable obstacle-free way exactly if there is one, and its answer means what it says", "statement": "For a robot, a goal and a previous path in the map, a planning cycle of planner_3d is never undefined and ends. 'In rock' means that there is no cell to start from; 'finishing' and 'escaped' that the robot is within the goal tolerance; 'unreachable' that the distance map does not reach the robot or the goal is occupied; 'not found' (without queue limit and abort) that no sequence of legal moves leads from a start to the goal. A published path is the kept stretch of the previous path followed by poses through the centres of a sequence of cells, without repetition, that begins at a start; each step is a motion the robot can drive (near a start) or one not exactly sideways (far away), and passes only free cells; every new pose lies in a free cell of the map; the path ends at the goal, or where the estimated remaining cost has fallen by the local range. Conversely, if a way by legal moves exists and the goal is neither reached yet nor occupied, a path is published.", "quantifier": "all maps, cost maps, distance maps, cost parameters, motion tables, robot and goal poses, previous paths, thread schedules, batch sizes, queue limits and aborts", "why_tests_cant": "absence of a way can only be compared with all ways; all maps, parameters and schedules", "anchors": ["planner_cspace/src/planner_3d.cpp: makePlan, buildStartPoses", "planner_cspace/src/grid_astar_model_3dof.cpp: cost, costEstim, searchGrids", "planner_cspace/include/planner_cspace/grid_astar.h: searchImpl"]}
{"id": "C82", "title": "An unreachable goal is reported only if there is no way", "statement": "If a planning cycle of planner_3d reports that the goal is unreachable while its distance map was made for the current costs and the robot's cell, then the goal is occupied, or no sequence of obstacle-free motions (of any kind the planner knows, also those it would not offer) leads from a cell within one cell of the robot to the goal; in particular no way from any of the planner's start cells. Conversely a robot all of whose neighbour cells are occupied gets no path other than one that is finished. The premise, that the 2D costmap of the distances is nowhere above the costs of the headings, holds after every history of maps and updates unless updates overwrite costs or cover only some headings.", "quantifier": "all maps, cost maps, cost parameters, motion tables, robot and goal poses, previous paths, thread schedules of the distance map, histories of maps and updates", "why_tests_cant": "the absence of a way can only be compared with all ways; all maps, headings and schedules", "anchors": ["planner_cspace/src/planner_3d.cpp: makePlan, cbMapUpdate", "planner_cspace/src/distance_map.cpp: create", "planner_cspace/src/motion_cache.cpp: reset"]}
{"id": "C83", "title": "The robot's outline keeps clear of the mapped obstacles along planned paths", "statement": "Given a map of the surroundings that the costmap node turned into costs with the robot's footprint (its template losing cost with distance, as templates of round robots always do) and that reached planner_3d, with any updates on top: at every grid pose a planned motion passes, and at a grid pose whose cell each newly published pose touches, the outline of the robot does not contain the centre of an occupied cell and is nowhere closer to it than the expansion. A round robot's published poses are at least the expansion minus one cell diagonal away from every point of every occupied cell. The premise is that unknown cells cost 100 (the default) or that there are none.", "quantifier": "all maps, footprints, expansions, spreads, update histories, cost parameters, robot and goal poses, previous paths, schedules of the search", "why_tests_cant": "the way from the map of the surroundings through the inflated costmap and the search to the published poses; all obstacles, all poses of all paths", "anchors": ["costmap_cspace/include/costmap_cspace/costmap_3d_layer/footprint.h: setFootprint, generateCSpace", "costmap_cspace/include/costmap_cspace/costmap_3d_layer/base.h: setBaseMap", "costmap_cspace/src/costmap_3d.cpp", "planner_cspace/src/planner_3d.cpp: cbMap, cbMapUpdate, makePlan"]}
{"id": "C84", "title": "The planner works with the last configuration and the last map", "statement": "After every history of reconfigurations and maps, planner_3d's ranges and tolerances in cells, its cost parameters and those of the distance map are those of the last configuration and the last map, the same as in a planner started anew with them, if maps of the same resolution have the same size; lengths and angles are kept to half a cell and half a heading, the search range is rounded down. (With maps of different size but the same resolution this fails for the border in which no curves are planned.)", "quantifier": "all histories of configurations and maps", "why_tests_cant": "every order of reconfigurations and maps", "anchors": ["planner_cspace/src/planner_3d.cpp: cbParameter, resetGridAstarModel, cbMap", "planner_cspace/src/grid_astar_model_3dof.cpp: GridAstarModel3D, updateCostParameters, cost"]}
{"id": "C85", "title": "The costmap node builds exactly the configured layers, or does not start", "statement": "For every set of parameters, costmap_3d either does not start or builds exactly the stack they describe: the root layer with the node's footprint and margins, the entries of static_layers in their order, the static output, the entries of layers in their order (or the single overlay layer), the update output; each entry with its class, margins, footprint (the node's if it has none) and overlay mode, and fed from the topic of its name. A mistake in any entry (class, overlay mode, margins, footprint) stops the node. Every node that starts serves all maps and overlay maps without failing, and the costmap it publishes is that above its static layers. (What is not written at all counts as 0: margins left out or misspelt and missing coordinates are not refused.)", "quantifier": "all parameter values, all lists of layers, all message histories of the nodes that start", "why_tests_cant": "unboundedly many configurations; tests start the node with a handful", "anchors": ["costmap_cspace/src/costmap_3d.cpp: Costmap3DOFNode, getMapOverlayModeFromString", "costmap_cspace/include/costmap_cspace/costmap_3d.h: Costmap3d", "costmap_cspace/include/costmap_cspace/polygon.h: Polygon", "costmap_cspace/include/costmap_cspace/costmap_3d_layer: loadConfig, setExpansion, Costmap3dLayerClassLoader"]}
{"id": "C86", "title": "The robot's outline keeps clear of the obstacles its sensors report", "statement": "For a costmap node with any list of layers: after a sensor message for a layer (or one below it), the update it publishes covers the area of that layer's latest message with at least the costs that layer draws, provided the layers above do not take obstacles away. When planner_3d has applied that update, at every grid pose a planned motion passes in the area of the message, and at a grid pose touched by each newly published pose, the outline of the robot does not contain the centre of a reported obstacle and is nowhere closer to it than the expansion. (Cells the message calls unknown are excepted unless the layer draws over them.)", "quantifier": "all stacks of layers, all histories of base and sensor messages of any areas, all histories of maps and updates in the planner, all footprints, robot and goal poses, search schedules", "why_tests_cant": "the way from a sensor message through every stack of layers, the update message and the planner's overlay to the published poses", "anchors": ["costmap_cspace/include/costmap_cspace/costmap_3d_layer/base.h: processMapOverlay, updateChain, UpdatedRegion", "costmap_cspace/include/costmap_cspace/costmap_3d_layer/output.h: CSpace3DUpdate output", "costmap_cspace/include/costmap_cspace/costmap_3d_layer/footprint.h: generateCSpace", "planner_cspace/src/planner_3d.cpp: cbMapUpdate, makePlan"]}
{"id": "C87", "title": "The planner plans with distances of the present goal and costs", "statement": "Whenever planner_3d plans a path (fast_map_update off), the distance map it consults was made for the goal, the costs, the remembered costs and the parameters of that moment: every finite value is the cost of a route from that goal in those costs, and the value of the cell the robot was in when the map was made is the smallest one. This holds in every history of maps, costmap updates (also kept ones), goals, temporary goals, lost and found poses, ends of goals, reconfigurations and planning cycles in which parameters and remembered costs change only while there is no goal, and goals, maps and updates for a goal arrive while the pose of the robot is known; and after any history whatsoever it holds again from the next goal, map or fitting update that arrives while the pose is known. The goal pursued is the one asked for, or the free pose found next to it, until a temporary goal is found.", "quantifier": "all histories of events, all fillings and schedules, all maps and updates, all ways the search for free cells and temporary goals goes", "why_tests_cant": "the flag that says the distances are valid is set and cleared in many callbacks; the histories in which it is wrong are rare interleavings with lost poses and reconfigurations", "anchors": ["planner_cspace/src/planner_3d.cpp: createCostEstimCache, setGoal, applyCostmapUpdate, cbMap, cbParameter, planPath, makePlan, updateTemporaryEscapeGoal", "planner_cspace/src/distance_map.cpp: DistanceMap::create, init"]}
{"id": "C88", "title": "The status of the safety limiter is true", "statement": "The status and the diagnostics that the safety limiter publishes tell what happens to the next command (unless it is disabled): without an available cloud or with the watchdog timed out, and exactly then, it is answered with zero and the summary is an error; otherwise its planar components are multiplied by the published ratio before the maxima are applied, the summary OK means that it passes with only the maxima applied, and a warning that at most a millionth of it remains. The time since when the robot is stuck is that of the first of the latest predictions that all found the robot in collision, and zero if the last one that tested the robot's position found none; the summary agrees with it.", "quantifier": "all configurations, all histories of commands, clouds, predictions, watchdog events, disable requests and reconfigurations", "why_tests_cant": "the status is computed from members that seven callbacks change, in any order", "anchors": ["safety_limiter/src/safety_limiter.cpp: diagnoseCollision, cbPredictTimer, cbWatchdogTimer, predict, cbTwist"]}
{"id": "C89", "title": "The tracker reports the goal only at the end of its path, after every stop", "statement": "On a path whose poses are at most 1 m apart, that never gives three poses at one place and is long enough for position control, the trajectory tracker reports GOAL only if since the path was received the robot has visited every switch-back and every turn of the path but one at its start (foot of the perpendicular from the predicted position on the path within the stop tolerance), the foot is within the goal tolerance of the last pose (or the path ends with a turn in place whose position has been visited), and the robot has the final heading or that of the stretch it is on, within the angle tolerance. The remaining distance it reports is the length of the path from that foot to the end. Whatever the paths, poses and parameters are, it reads no pose outside its path, as long as path_step is not changed.", "quantifier": "all parameters, all histories of path messages, odometry, timer cycles and odometry time-outs, all poses of the robot", "why_tests_cant": "which part of the path counts as done depends on all earlier poses, and the geometry of the path is arbitrary", "anchors": ["trajectory_tracker/src/trajectory_tracker.cpp: getTrackingResult, control, cbOdometry, cbTimer, cbPath", "trajectory_tracker/include/trajectory_tracker/path2d.h: findLocalGoal, findNearestWithDistance, remainedDistance", "trajectory_tracker/include/trajectory_tracker/eigen_line.h: projection2d"]}
{"id": "C90", "title": "The tracker brakes in time for the stops of its path, and arrives", "statement": "On a straight stretch, forward or backward, a robot that moves as commanded and starts at rest before a stop of its path never gets further behind the stop than V*D/2 + acc_toc*D^2/8 + look_forward*acc*D, where V bounds the linear velocities of the path and D the time between control cycles, nor further before it than where it started or than this bound. At every moment its speed v towards the stop can still be braked: v^2/(2*acc_toc) is at most the way left plus V*D/2 + look_forward*acc*D. This holds for acc_toc at most acc, whatever the velocities and curvatures of the path are, and however following, turning in place and stopping alternate. As long as it follows the path, with velocities and cycle lengths bounded from below and bounded curvature, its predicted position is within any given tolerance of the stop, or behind it, after a number of cycles that depends on these bounds only.", "quantifier": "all parameters with 0 < acc_toc <= acc, all distances, all sequences of control cycles of any lengths up to D with any velocities up to V, any curvatures and any modes", "why_tests_cant": "the bound is on the position after any number of cycles of irregular lengths, in closed loop, and depends on real parameters", "anchors": ["trajectory_tracker/src/trajectory_tracker.cpp: control, getTrackingResult", "trajectory_tracker/include/trajectory_tracker/basic_control.h: timeOptimalControl, clip, VelAccLimitter::set"]}
{"id": "C91", "title": "Turns in place stop in time, and arrive", "statement": "With time optimal control, a robot that turns as commanded and starts at rest, less than half a turn off the wanted heading, turns past it by no more than V*D/2 + acc_toc*D^2/8 + gain*acc*D^2, to the left or to the right, where V is the maximum angular velocity, D bounds the time between control cycles and gain is time_optimal_control_future_gain; provided that this bound is below half a turn. It takes the shorter way round: it does not turn further off than where it started or than this bound. At every moment the turn can still be stopped with deceleration acc_toc within V*D/2 + gain*acc*D^2 behind the wanted heading. A turn, with cycle lengths bounded from below, has an expected heading within any given tolerance of the wanted one, or past it, after a number of cycles that depends on these bounds only.", "quantifier": "all parameters with 0 < acc_toc <= acc and gain >= 0, all angles below half a turn, all sequences of control cycles of any lengths up to D, with stops in between", "why_tests_cant": "the bound is on the heading after any number of cycles of irregular lengths, in closed loop, and depends on real parameters", "anchors": ["trajectory_tracker/src/trajectory_tracker.cpp: control, getTrackingResult", "trajectory_tracker/include/trajectory_tracker/basic_control.h: timeOptimalControl, clip, VelAccLimitter::set"]}
{"id": "C92", "title": "Driving straight behind the limiter, the robot does not run into what its sensors see", "statement": "A rectangular robot that drives straight ahead with the commands the safety limiter passes on, in closed loop, never has an obstacle of the cloud in its footprint if it has none at the start, and never gets behind an obstacle in its way. This holds for any static obstacles, any sequence of commands up to the configured speed, any limits held from before and any share of the limited command the robot really drives with, provided that prediction steps are shorter than the robot and the next prediction comes within the reaction time the limiter reckons with (one period plus one prediction step).", "quantifier": "all obstacle clouds, all rectangular footprints, all parameters with reaction time plus step at most vel/acc, all sequences of commands, held limits, speeds and times between predictions", "why_tests_cant": "it is an invariant of a closed loop over arbitrarily many irregular cycles, for any cloud and real parameters", "anchors": ["safety_limiter/src/safety_limiter.cpp: cbPredictTimer, predict, limit, cbTwist"]}
