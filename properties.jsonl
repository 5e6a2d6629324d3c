{"id": "C01", "title": "Coordinate::new accepts exactly the wall positions of the maze", "statement": "For every supported maze width W (a power of two not above 32), Coordinate::<W>::new(x, y) returns Some exactly when x < 2W, y < 2W and x + y is odd, and the returned value reports the same x and y. For a width that is not a power of two it always returns None.", "quantifier": "all u8 values of W, x and y", "why_tests_cant": "the space is 2^24 argument triples across const-generic instantiations; tests instantiate W=4/16/32 only", "anchors": ["mousecore2/src/solve/search.rs: Coordinate::new, x, y"]}
{"id": "C02", "title": "Distinct walls never share storage", "statement": "For every supported W, two different coordinates accepted by Coordinate::new always denote different storage slots, every slot is inside the fixed-size buffers of Walls, WallDetector and Searcher, and every slot below 2*W*W is used by some coordinate.", "quantifier": "all supported W and all pairs of valid coordinates", "why_tests_cant": "injectivity is a statement about all pairs for every W", "anchors": ["mousecore2/src/solve/search.rs: Coordinate::as_index", "mousecore2/src/wall.rs: EXISTENCE_ARRAY_LEN, WALL_ARRAY_LEN", "mousecore2/src/lib.rs: WIDTH"]}
{"id": "C03", "title": "Walls is a map: read-after-write and frame", "statement": "After walls.update(c, s), walls.wall_state(c) = s and wall_state of every other coordinate is unchanged; consequently after any sequence of updates wall_state(c) is the state of the last update to c, or the initial state when c was never updated. No update or query panics.", "quantifier": "every supported W, every history of updates, every coordinate", "why_tests_cant": "histories are unbounded and the 2-bit packing makes interference between neighbours possible", "anchors": ["mousecore2/src/wall.rs: Walls::update, Walls::wall_state"]}
{"id": "C04", "title": "A fresh Walls holds exactly the wall facts known in advance", "statement": "Walls::<W>::new() reports the right border and the top border as existing walls, the wall (1,0) as existing, (0,1) as open, and every other wall as Unchecked (for W = 1, where (0,1) is itself the top border, (0,1) is open).", "quantifier": "all supported W and all coordinates", "why_tests_cant": "needs every coordinate for every W", "anchors": ["mousecore2/src/wall.rs: Walls::new, Default"]}
{"id": "C05", "title": "Byte serialisation of Walls is lossless", "statement": "For every Walls value obtained from new() by updates, Walls::try_from(walls.as_bytes()) succeeds and yields a Walls equal to the original (same state at every coordinate), and slices of any other length are rejected.", "quantifier": "all supported W, all update histories, all byte slices", "why_tests_cant": "unbounded histories", "anchors": ["mousecore2/src/wall.rs: as_bytes, TryFrom<&[u8]>"]}
{"id": "C06", "title": "Any byte slice accepted by Walls::try_from can be queried safely", "statement": "If Walls::<W>::try_from(bytes) succeeds, then wall_state(c) returns a state for every coordinate c (it does not panic).", "quantifier": "all byte arrays of the accepted length, all coordinates", "why_tests_cant": "256^512 byte arrays", "anchors": ["mousecore2/src/wall.rs: TryFrom<&[u8]>, wall_state"]}
{"id": "C07", "title": "Parsing the printed maze gives the maze back", "statement": "For every Walls value, walls.to_string().parse() succeeds and the result has, at every coordinate, Checked{exists:true} exactly where the original has it and Checked{exists:false} everywhere else; in particular the round trip is the identity when every wall is checked.", "quantifier": "all supported W, all Walls values", "why_tests_cant": "all 4^(2W^2) maze contents", "anchors": ["mousecore2/src/wall.rs: Display for Walls, FromStr for Walls"]}
{"id": "C08", "title": "Printing a parsed well-formed maze text gives the text back", "statement": "If s consists of exactly 2W+1 newline-terminated lines in the documented maze format, then s.parse::<Walls<W>>() succeeds, its walls are the ones drawn in s, and to_string() of the result is s.", "quantifier": "all supported W and all well-formed texts", "why_tests_cant": "exponentially many texts", "anchors": ["mousecore2/src/wall.rs: FromStr for Walls, Display for Walls"]}
{"id": "C09", "title": "Parse errors point at the first offending characters", "statement": "When parse fails, the reported line and character range designate the first place (in reading order) where the text is not one of the allowed pieces, the reported expectation is the set of pieces allowed there, and every earlier piece of the text was allowed. Parse never panics.", "quantifier": "all supported W and all input strings", "why_tests_cant": "all strings", "anchors": ["mousecore2/src/wall.rs: FromStr for Walls, ParseWallsError"]}
{"id": "C10", "title": "Parse rejects texts that do not describe the whole maze", "statement": "If s.parse::<Walls<W>>() succeeds then s contains a description of all 2*W+1 maze lines.", "quantifier": "all supported W and all input strings", "why_tests_cant": "all strings", "anchors": ["mousecore2/src/wall.rs: FromStr for Walls"]}
{"id": "C11", "title": "Search shortest_path returns a legal route", "statement": "If searcher.shortest_path(is_wall) returns Some(path), then path starts at the start wall, ends at one of the goals, has at least two entries, and each consecutive pair is a straight or diagonal run all of whose walls after its first one (including its last) are not walls according to is_wall.", "quantifier": "all supported W, starts, goal lists and is_wall predicates", "why_tests_cant": "2^(2W^2) mazes", "anchors": ["mousecore2/src/solve/search.rs: Searcher::shortest_path, bfs_tree, extended_neighbors"]}
{"id": "C12", "title": "Search shortest_path is optimal in the number of runs", "statement": "No legal route from the start to a goal other than the start has fewer runs than the path returned by searcher.shortest_path, although the implementation skips directions it has already swept.", "quantifier": "all supported W, starts, goal lists and is_wall predicates", "why_tests_cant": "optimality is a statement over all routes in all mazes; the direction-pruning optimisation could silently break it", "anchors": ["mousecore2/src/solve/search.rs: bfs_tree (kinds, excludes), shortest_path"]}
{"id": "C13", "title": "Search shortest_path is complete", "statement": "searcher.shortest_path(is_wall) returns None exactly when no goal different from the start is reachable from the start by legal runs (a goal equal to the start itself is never reported).", "quantifier": "all supported W, starts, goal lists and is_wall predicates", "why_tests_cant": "reachability in every maze", "anchors": ["mousecore2/src/solve/search.rs: bfs_tree, shortest_path"]}
{"id": "C14", "title": "A goal equal to the start is reachable with zero moves", "statement": "If the start is one of the goals, searcher.shortest_path returns Some path.", "quantifier": "all supported W, starts, goal lists containing the start, and is_wall predicates", "why_tests_cant": "corner case outside the tests", "anchors": ["mousecore2/src/solve/search.rs: bfs_tree"]}
{"id": "C15", "title": "The search solver never panics and always terminates", "statement": "For every supported W, valid start/current/goal coordinates and every wall_state or is_wall function, shortest_path, search, next_coordinate and force_next_coordinate terminate without panicking: no index out of bounds, no fixed-capacity Vec or Deque overflow, no unreachable!, no integer overflow.", "quantifier": "all supported W, coordinates and wall functions", "why_tests_cant": "the buffers are sized by constants; overflow depends on the maze", "anchors": ["mousecore2/src/solve/search.rs: extended_neighbors, intermediate_coords, neighbors, bfs_tree, candidates, search, shortest_path"]}
{"id": "C16", "title": "When search says done, the known map already contains an optimal route", "statement": "If searcher.search(current, wall_state) returns Ok(None), then for every actual maze that agrees with wall_state on the checked walls, the shortest route using only walls known to be open has exactly as many runs as the shortest route of the actual maze, and shortest_path over the known-open walls returns a route with that number of runs.", "quantifier": "all supported W, wall_state functions obtained from a Walls value, and all mazes consistent with it", "why_tests_cant": "quantifies over all completions of partial knowledge", "anchors": ["mousecore2/src/solve/search.rs: Searcher::search, unchecked_walls"]}
{"id": "C17", "title": "search reports done as soon as the optimistic route is fully known", "statement": "If every wall on the route that searcher.shortest_path finds when unchecked walls are treated as open is already Checked, then search returns Ok(None).", "quantifier": "all supported W, starts, goals and Walls values", "why_tests_cant": "depends on how walls between two route corners are enumerated", "anchors": ["mousecore2/src/solve/search.rs: unchecked_walls, intermediate_coords"]}
{"id": "C18", "title": "wall_state callbacks only receive valid coordinates", "statement": "Every Coordinate that searcher.search passes to the caller's wall_state function is one that Coordinate::new accepts.", "quantifier": "all supported W and all calls", "why_tests_cant": "the callback argument is not observed by the tests", "anchors": ["mousecore2/src/solve/search.rs: intermediate_coords, new_relative, unchecked_walls"]}
{"id": "C19", "title": "The commander heads for the nearest unknown wall of the route", "statement": "If search returns Ok(Some(commander)), the first candidate is an adjacent, not-known-to-exist wall of the current position that starts a shortest chain of adjacent, not-known-to-exist walls from current to a wall the search wants to check.", "quantifier": "all supported W, current positions and wall functions", "why_tests_cant": "shortest chains over all mazes", "anchors": ["mousecore2/src/solve/search.rs: Searcher::search, candidates, neighbors"]}
{"id": "C20", "title": "The commander's candidates are exactly the passable neighbours, same cell first", "statement": "The candidate list of a commander contains each adjacent wall of current that is not known to exist exactly once and nothing else; after the first candidate come the other walls of the same cell as the first, then the walls of the cell on the other side.", "quantifier": "all supported W, current positions and wall functions", "why_tests_cant": "all mazes", "anchors": ["mousecore2/src/solve/search.rs: candidates, is_neighbor"]}
{"id": "C21", "title": "search returns Unreachable only when it must", "statement": "search returns Err(Unreachable) exactly when no goal other than the start is reachable from the start through walls not known to exist, or no wanted unknown wall is reachable from current through walls not known to exist; in particular it never returns Err when current is a wall known to be open that is connected to the start and the goals are reachable in an actual maze consistent with wall_state.", "quantifier": "all supported W, current positions and wall functions", "why_tests_cant": "all mazes", "anchors": ["mousecore2/src/solve/search.rs: search, SearchError"]}
{"id": "C22", "title": "next_coordinate never sends the mouse into an unknown or existing wall", "statement": "next_coordinate returns Ok(Some(c)) only for a candidate c known to be open with all earlier candidates known to exist, Ok(None) exactly when the first candidate not known to exist is unchecked, and Err exactly when all candidates are known to exist; force_next_coordinate returns the first candidate known to be open if any.", "quantifier": "all candidate lists and wall_state functions", "why_tests_cant": "all lists and functions", "anchors": ["mousecore2/src/solve/search.rs: Commander::next_coordinate, force_next_coordinate"]}
{"id": "C23", "title": "Exploration terminates and succeeds on every maze", "statement": "Starting from a fresh Walls at (0,1) facing North, repeat: search, reveal the true state of the walls of the cell ahead, take next_coordinate, update the SearchState. For every maze in which the fresh map is true, this loop never gets stuck or panics and stops after finitely many rounds: with Ok(None) when a goal is reachable in the maze (and then the known map contains an optimal route), with Err(Unreachable) otherwise.", "quantifier": "all supported W of at least 2, all mazes and goal sets", "why_tests_cant": "the claim is about unbounded executions over all mazes", "anchors": ["mousecore2/src/solve/search.rs: Searcher::search, Commander::next_coordinate, SearchState::update", "mousecore2/tests/search.rs: test_search loop"]}
{"id": "C24", "title": "SearchState always faces across its wall and moves one wall at a time", "statement": "SearchState::new succeeds exactly for postures perpendicular to the wall; update succeeds exactly for the six adjacent walls; after a successful update the state again satisfies the constructor's condition; Front/Right/Left move to the given wall, Back keeps the wall and reverses the posture; on failure nothing changes. No sequence of updates panics.", "quantifier": "all supported W, all states reachable from new by any sequence of updates", "why_tests_cant": "unbounded sequences", "anchors": ["mousecore2/src/solve/search.rs: SearchState::new, update"]}
{"id": "C25", "title": "Search moves agree with the poses they are driven from", "statement": "Driving the displacement of the returned TrajectoryKind (one square ahead for Front, the Search90 slalom end for Right/Left, forward-spin-forward for Back) from Pose::from_search_state of the old state ends at Pose::from_search_state of the new state, for every front offset (exactly for Front and Back, and within one millionth of a square width plus the table's rounding for the slaloms); in exact real arithmetic, angles modulo a full turn.", "quantifier": "all supported W, all valid states, all adjacent walls, all square widths and front offsets", "why_tests_cant": "continuous parameters", "anchors": ["mousecore2/src/wall.rs: Pose::from_search_state", "mousecore2/src/solve/search.rs: SearchState::update", "mousecore2/src/trajectory/slalom.rs: SlalomConfig::new", "mousecore2/tests/search.rs: front/right/left/back"]}
{"id": "C26", "title": "Node identifiers are lossless and in bounds", "statement": "For every supported W, Node::new accepts exactly cell centres with a cardinal posture and wall centres with a diagonal posture; distinct nodes occupy distinct slots of the run solver's tables, all inside the tables, and converting a node to its identifier and back is the identity.", "quantifier": "all supported W, all nodes", "why_tests_cant": "all pairs of nodes", "anchors": ["mousecore2/src/solve/run.rs: Node::new, as_index, NodeId"]}
{"id": "C27", "title": "Run moves are physically possible and always have a trajectory", "statement": "Every move the run solver considers leads from a node to a valid node, crosses only walls that are not walls according to is_wall, and trajectory_kind(from, to) returns Some kind of the matching shape (straight length, slalom type and turn direction).", "quantifier": "all supported W, nodes and is_wall predicates", "why_tests_cant": "all nodes in all mazes; trajectory_kind and the solver encode the same geometry twice", "anchors": ["mousecore2/src/solve/run.rs: successors, succs_flow, trajectory_kind"]}
{"id": "C28", "title": "run::shortest_path returns a legal path and its cost", "statement": "If shortest_path(start, is_goal, is_wall, into_cost) returns Some((path, cost)) then path starts at start, ends at a node satisfying is_goal, every consecutive pair is a possible move, and cost is the (saturating) sum of into_cost over its moves.", "quantifier": "all supported W, starts, goal and wall predicates, cost functions, and all orders in which the heap may return equal costs", "why_tests_cant": "all mazes and cost functions", "anchors": ["mousecore2/src/solve/run.rs: shortest_path"]}
{"id": "C29", "title": "run::shortest_path is optimal and complete", "statement": "The returned cost is minimal among all paths from start to a goal; None is returned exactly when no goal is reachable with a total cost below the maximum of the cost type. It does not panic. (W up to 8.)", "quantifier": "all supported W up to 8, starts, predicates, cost functions and tie-breaking orders", "why_tests_cant": "optimality over all paths in all mazes", "anchors": ["mousecore2/src/solve/run.rs: shortest_path, QUE_MAX, PATH_MAX"]}
{"id": "C30", "title": "run::shortest_path is optimal for large mazes as well", "statement": "The statement of the previous property holds for W = 16 and W = 32 too, although heap.push errors are ignored and the path buffer holds 1024 nodes.", "quantifier": "W = 16 and 32, all mazes and cost functions", "why_tests_cant": "needs adversarial cost functions that fill the heap", "anchors": ["mousecore2/src/solve/run.rs: shortest_path (heap.push(..).ok()), QUE_MAX, PATH_MAX"]}
{"id": "C31", "title": "Every run move ends at the pose of the next node", "statement": "For each move returned by trajectory_kind, the end pose of the corresponding straight or slalom (table of SlalomConfig) driven from Pose::from_node of the first node is Pose::from_node of the second node, within one part in a million of the square width, heading modulo a full turn; in exact real arithmetic.", "quantifier": "all supported W, all pairs of nodes with a trajectory kind, all square widths", "why_tests_cant": "continuous parameters and all node pairs", "anchors": ["mousecore2/src/solve/run.rs: trajectory_kind", "mousecore2/src/trajectory/slalom.rs: SlalomConfig::new, parameters", "mousecore2/src/wall.rs: Pose::from_node"]}
{"id": "C32", "title": "Speed changes are smooth and respect the limits", "statement": "A velocity change from v_start to v_end planned with limits a_max, j_max has |jerk| <= j_max and |acceleration| <= a_max at every time, velocity between v_start and v_end, acceleration continuous and zero at both ends, velocity the exact integral of acceleration and position the exact integral of velocity; in exact real arithmetic.", "quantifier": "all non-negative v_start, v_end, all positive a_max, j_max, all times", "why_tests_cant": "continuum of times and parameters", "anchors": ["mousecore2/src/trajectory/straight.rs: generate_acceleration, AccelerationCalculator::calculate"]}
{"id": "C33", "title": "Straight trajectories cover the requested distance within the limits", "statement": "For StraightGenerator::generate_with_terminal_velocity with 0 <= v_start,v_end <= v_max and v_end >= v_start or enough braking distance, the motion starts at 0 with v_start, ends at exactly the requested distance with the returned terminal velocity, is continuous in position and velocity, never exceeds v_max, a_max, j_max, and negative distances give the mirror image; in exact real arithmetic.", "quantifier": "all distances, velocities, limits and times satisfying the precondition", "why_tests_cant": "continuum of inputs", "anchors": ["mousecore2/src/trajectory/straight.rs: generate_with_terminal_velocity, OverallCalculator::calculate"]}
{"id": "C34", "title": "A feasible terminal velocity is honoured", "statement": "If braking from v_start to v_end fits in the distance, generate_with_terminal_velocity returns v_end as terminal velocity.", "quantifier": "all distances, velocities and limits", "why_tests_cant": "depends on monotonicity of a searched function over a continuum", "anchors": ["mousecore2/src/trajectory/straight.rs: calculate_reachable_velocity"]}
{"id": "C35", "title": "The terminal velocity is never above what was requested when accelerating, and the plan never runs past v_max", "statement": "For 0 <= v_start < v_end <= v_max the returned terminal velocity lies between v_start and v_end, and its acceleration distance fits in the distance; it is within (v_max - v_start)/2^25 of the largest such velocity.", "quantifier": "all distances, velocities and limits", "why_tests_cant": "continuum of inputs", "anchors": ["mousecore2/src/trajectory/straight.rs: calculate_reachable_velocity"]}
{"id": "C36", "title": "Trajectory iterators are finite and sample at the period", "statement": "A StraightTrajectory, SpinTrajectory or CurveTrajectory with end time T >= 0 and period p > 0 yields exactly floor(T/p)+1 targets, the n-th being the value at n*p; a StopTrajectory yields exactly ceil(T/p) targets, all equal to the pose at rest; afterwards they keep returning None; in exact real arithmetic.", "quantifier": "all end times and periods", "why_tests_cant": "unbounded iteration counts", "anchors": ["mousecore2/src/trajectory/straight.rs: StraightTrajectory::next", "mousecore2/src/trajectory/spin.rs: SpinTrajectory::next", "mousecore2/src/trajectory/slalom.rs: CurveTrajectory::next", "mousecore2/src/trajectory.rs: StopTrajectory::next"]}
{"id": "C37", "title": "A zero-length move from rest to rest ends", "statement": "StraightGenerator::generate(0, 0, 0) yields a finite trajectory.", "quantifier": "all generator limits; IEEE binary32 arithmetic", "why_tests_cant": "division 0/0 only in float semantics; iterating in a test would hang", "anchors": ["mousecore2/src/trajectory/straight.rs: generate_constant, StraightTrajectory::next"]}
{"id": "C38", "title": "ShiftTrajectory is a rigid motion", "statement": "Each target of ShiftTrajectory(pose, inner) is the inner target moved by the rigid motion of pose: distances, speeds, accelerations and jerks keep their norms, headings are offset by pose.theta, velocity components along and across the heading are preserved, shifting by two poses is shifting by their composition; exactly the inner's number of targets is produced.", "quantifier": "all poses, inner iterators, targets", "why_tests_cant": "continuum of inputs", "anchors": ["mousecore2/src/trajectory.rs: ShiftTrajectory"]}
{"id": "C39", "title": "Curve trajectories move along their heading at constant speed", "statement": "Every target of a curve has velocity v along its heading and none across it, acceleration v*omega across the heading, jerk consistent with the second derivative, heading starting at the initial heading and never beyond the final one; the position advances at most v*period per sample.", "quantifier": "all curve parameters and all samples", "why_tests_cant": "continuum of inputs", "anchors": ["mousecore2/src/trajectory/slalom.rs: CurveTrajectory::next, generate_curve"]}
{"id": "C40", "title": "Right slaloms mirror left slaloms", "statement": "For every kind, parameters(kind, Right) is parameters(kind, Left) with y_curve_end and theta negated, and the generated right trajectory is the mirror image of the left one target by target.", "quantifier": "all slalom kinds, square widths, offsets, speeds and samples", "why_tests_cant": "continuum of inputs", "anchors": ["mousecore2/src/trajectory/slalom.rs: SlalomConfig::parameters, create_params, generate_constant_slalom"]}
{"id": "C41", "title": "A spin turns by exactly the requested angle and stays in place", "statement": "SpinGenerator::generate(theta) starts and ends at rest, every target has zero translational components, the heading is monotone from 0 to theta and angular speed, acceleration and jerk stay within the limits; in exact real arithmetic.", "quantifier": "all angles, limits and times", "why_tests_cant": "continuum of inputs", "anchors": ["mousecore2/src/trajectory/spin.rs: SpinGenerator::generate"]}
{"id": "C42", "title": "Controller output is feed-forward plus PID of the history since reset", "statement": "After any sequence of control calls since construction or the last reset, the next output is the documented feed-forward + P + D terms of the current arguments plus ki times the sum of past errors times the period; reset makes the controller indistinguishable from a new one; left/right are the difference/sum of the two channels.", "quantifier": "all histories of control/reset calls", "why_tests_cant": "unbounded histories", "anchors": ["mousecore2/src/control.rs: Controller::control, control_each, reset"]}
{"id": "C43", "title": "Angle normalisation", "statement": "The heading error used by the tracker is in (-pi, pi] and differs from target minus state by a whole number of turns; in exact real arithmetic.", "quantifier": "all angles", "why_tests_cant": "continuum of inputs", "anchors": ["mousecore2/src/control.rs: normalize_angle"]}
{"id": "C44", "title": "sinc approximation error", "statement": "The tracker's sinc(x) differs from sin(x)/x by at most |x|^10/11! for every heading error in [-pi, pi], i.e. by less than 0.0024.", "quantifier": "all x in [-pi, pi]", "why_tests_cant": "continuum of inputs", "anchors": ["mousecore2/src/control.rs: sinc"]}
{"id": "C45", "title": "Tracking is neutral on the target", "statement": "If the state equals the target (position, velocity, heading moving along the heading) navigation returns the target's acceleration and jerk, and the low-speed tracking law returns the target's speed and turn rate; the navigation input depends only on the errors.", "quantifier": "all states and targets", "why_tests_cant": "continuum of inputs", "anchors": ["mousecore2/src/control.rs: NavigationController::navigate, Tracker::track"]}
{"id": "C46", "title": "The supervisor changes the input minimally", "statement": "apply_constraints returns its input unchanged when the linear constraint holds, and otherwise the closest input on the constraint boundary; the jerk is rotated and scaled like the acceleration; no panic unless the constraint has zero gradient.", "quantifier": "all inputs and constraints", "why_tests_cant": "continuum of inputs", "anchors": ["mousecore2/src/control.rs: SupervisoryController::apply_constraints"]}
{"id": "C47", "title": "The supervisor considers the pillars at the corners of the current cell", "statement": "The four corner pillars of the cell containing the mouse are among the pillars considered by supervise.", "quantifier": "all positions in the maze", "why_tests_cant": "off-by-one in pillar indexing is invisible without collision checks", "anchors": ["mousecore2/src/control.rs: nearest_pillars, supervise"]}
{"id": "C48", "title": "Estimator heading is the integral of the gyro and speed is the complementary filter", "statement": "After any sequence of sensor values the heading equals the initial heading plus the sum of angular velocity times period, the reported velocity vector has norm |v| with v the complementary-filter recursion of the inputs, and with constant encoder speed and no acceleration the speed error decays as alpha^n.", "quantifier": "all sensor histories", "why_tests_cant": "unbounded histories", "anchors": ["mousecore2/src/estimate.rs: Estimator::estimate"]}
{"id": "C49", "title": "Wall detection is exact Bayesian filtering and order-independent", "statement": "While a wall is undecided, its stored probability stays strictly between 0 and 1 and after any sequence of readings equals prior odds times the product of the Gaussian likelihood ratios, so the result does not depend on the order of the readings; the reported state is exists:true above 0.9, exists:false below 0.1, Unchecked in between; other walls are untouched.", "quantifier": "all reading histories", "why_tests_cant": "unbounded histories", "anchors": ["mousecore2/src/wall.rs: WallDetector::detect_and_update"]}
{"id": "C50", "title": "Decided walls are latched", "statement": "Once a wall's probability is within f32::EPSILON of 0 or 1 every later reading of that wall returns None and leaves the detector unchanged; a detector built by with_walls never reports a wall that was Checked in walls.", "quantifier": "all reading histories", "why_tests_cant": "unbounded histories", "anchors": ["mousecore2/src/wall.rs: detect_and_update, with_walls"]}
{"id": "C51", "title": "The wall reported for a pose is the one its ray hits", "statement": "If PoseConverter::convert(pose) returns Some(info), then info.coord is a wall of the cell containing the pose, the point at existing_distance along the pose's direction lies on that wall's face within the cell, existing_distance is positive and not larger than not_existing_distance; in exact real arithmetic, for poses within 128 cells of the origin.", "quantifier": "all poses", "why_tests_cant": "continuum of inputs", "anchors": ["mousecore2/src/wall.rs: PoseConverter::convert, is_near_pillar, remquof_with_width"]}
{"id": "C52", "title": "Poses outside the maze are rejected", "statement": "If the pose is not in a cell of the maze, nor looking at the maze border from a cell adjacent to it, convert returns None.", "quantifier": "all poses", "why_tests_cant": "wrap-around happens far outside the tested range", "anchors": ["mousecore2/src/wall.rs: convert ((x_quo as u8) << 1)"]}
{"id": "C53", "title": "Simulator voltages and speeds are bounded", "statement": "For every sequence of apply and step calls the applied voltages stay within max_voltage and the translational and rotational speed never exceed the larger of their initial value and gain times max_voltage; in exact real arithmetic.", "quantifier": "all call histories", "why_tests_cant": "unbounded histories", "anchors": ["mousesim2/src/lib.rs: Simulator::apply, step"]}
{"id": "C54", "title": "Simulator motion is consistent", "statement": "After every step the velocity is along the heading, the acceleration is the difference quotient of the velocity, heading advances by angular velocity times period, and the encoder outputs have mean equal to the averaged speed times period and difference equal to averaged turn rate times wheel interval times period.", "quantifier": "all call histories", "why_tests_cant": "unbounded histories", "anchors": ["mousesim2/src/lib.rs: step, distance, translational_acceleration"]}
{"id": "C55", "title": "Simulator never applies an invalid voltage", "statement": "Whatever MotorOutput is passed to apply, the stored voltages are within max_voltage (in f32 semantics).", "quantifier": "all f32 values including NaN and infinities", "why_tests_cant": "needs non-finite inputs", "anchors": ["mousesim2/src/lib.rs: apply"]}
{"id": "C56", "title": "Encoder differences survive counter wrap-around", "statement": "If the true count moves by less than 32768 between readings, the sum of the angles returned since construction equals the true rotation (count/1024 revolutions), however often the 16-bit counter wraps.", "quantifier": "all counter histories", "why_tests_cant": "unbounded histories", "anchors": ["sensors2/src/encoder.rs: MA702GQ::angle, get_lower_bits"]}
{"id": "C57", "title": "Encoder reading never panics", "statement": "angle() returns a value for every pair of consecutive counter values (debug build arithmetic).", "quantifier": "all pairs of counter values", "why_tests_cant": "a single bad difference out of 65536", "anchors": ["sensors2/src/encoder.rs: MA702GQ::angle"]}
{"id": "C58", "title": "Motor duties stay in range and have the right sign", "statement": "For a positive battery voltage, apply sets both duties within [0, max_duty], one pin is at max_duty, the other is max_duty*(1 - min(1,|voltage|/battery)) rounded down, pin 1 being the modulated one exactly when voltage > 0.", "quantifier": "all voltages, positive battery voltages and max duties", "why_tests_cant": "continuum of inputs", "anchors": ["sensors2/src/motor.rs: Motor::apply"]}
{"id": "C59", "title": "Zero voltage command never drives the motor", "statement": "If voltage is 0, apply leaves both pins at full duty (no drive) for every battery reading.", "quantifier": "all battery readings including 0; f32 semantics", "why_tests_cant": "0/0 only at a dead battery reading", "anchors": ["sensors2/src/motor.rs: Motor::apply"]}
{"id": "C60", "title": "Voltmeter output stays within the range of its readings", "statement": "voltage() is always a weighted average of all converted ADC readings so far; it lies between their minimum and maximum, for every positive period and cut-off frequency.", "quantifier": "all reading histories", "why_tests_cant": "unbounded histories", "anchors": ["sensors2/src/voltmeter.rs: Voltmeter::new, update_voltage"]}
{"id": "C61", "title": "IMU bus transfers happen only while selected", "statement": "In every execution of any sequence of IMU calls, every SPI transfer occurs while chip-select is low; and if the select pin operations succeed, chip-select is high again after each call, also when the transfer fails.", "quantifier": "all call sequences and all failure patterns of bus and pins", "why_tests_cant": "all failure schedules", "anchors": ["sensors2/src/imu.rs: read_from_registers, write_to_register, assert, deassert"]}
{"id": "C62", "title": "IMU raw data decoding", "statement": "The two register bytes are decoded as a big-endian two's-complement 16-bit integer, for all byte pairs.", "quantifier": "all byte pairs", "why_tests_cant": "65536 pairs", "anchors": ["sensors2/src/imu.rs: connect_raw_data"]}
{"id": "C63", "title": "IMU calibration removes the mean and is all-or-nothing", "statement": "After a successful calibrate the offsets equal the mean of the 1000 raw readings taken (independently of the previous offsets); after a failed calibrate the offsets are unchanged.", "quantifier": "all reading sequences and failure patterns", "why_tests_cant": "all sequences of 1000 readings", "anchors": ["sensors2/src/imu.rs: calibrate"]}
{"id": "C64", "title": "Range sensor protocol: at most one result per request", "statement": "For every sequence of request_polling and distance calls and every bus behaviour, distance returns Ok only after a successful request not yet consumed, is_polling_requested tells whether such a request is outstanding, and a failing or not-ready distance call keeps the request outstanding.", "quantifier": "all call sequences and bus behaviours", "why_tests_cant": "all failure schedules", "anchors": ["sensors2/src/tof.rs: request_polling, distance, is_polling_requested"]}
{"id": "C65", "title": "Range sensor can be re-initialised", "statement": "Calling init again on a working sensor addresses the freshly reset device (default address) and completes.", "quantifier": "all addresses", "why_tests_cant": "needs a device model with address reset", "anchors": ["sensors2/src/tof.rs: init, update_device_address"]}
{"id": "C66", "title": "Motor duties stay in range in f32 for every command", "statement": "In binary32 arithmetic, for a positive battery voltage and every commanded voltage including infinities and NaN, apply sets both duties within [0, max_duty].", "quantifier": "all f32 voltages, all positive f32 battery voltages, all max duties", "why_tests_cant": "2^64 pairs of floats with rounding", "anchors": ["sensors2/src/motor.rs: Motor::apply"]}
{"id": "C67", "title": "IMU calls never panic", "statement": "No sequence of init, calibrate, angular_velocity and translational_acceleration calls panics, whatever the bus, pins and timer answer.", "quantifier": "all call sequences and all behaviours of bus, pins and timer", "why_tests_cant": "all failure schedules", "anchors": ["sensors2/src/imu.rs: init, calibrate, check_who_am_i, angular_velocity, translational_acceleration"]}
{"id": "C68", "title": "The supervisor guards every pillar it considers and never panics inside a maze", "statement": "For squares of a whole number of millimetres and any position in the first 125 x 125 cells, supervise returns a value; the value is the input itself when the avoidance condition of each of the six considered pillars holds, and otherwise it satisfies the condition of the most violated considered pillar with equality; in exact real arithmetic.", "quantifier": "all states, inputs, gains, avoidance distances and square widths in whole millimetres", "why_tests_cant": "continuous state space; choice of the minimum among six pillars", "anchors": ["mousecore2/src/control.rs: supervise, nearest_pillars, remquof, apply_constraints"]}
{"id": "C69", "title": "The pillar condition is a barrier that keeps the mouse out of the avoidance circle", "statement": "For a pillar and the clearance h = distance^2 - avoidance_distance^2, the constraint computed by supervise is h'' + 2 margin h' + margin^2 h >= 0 along every twice differentiable motion; a motion that satisfies it on an interval and starts with h >= 0 and h' + margin h >= 0 has h >= 0 at the end.", "quantifier": "all twice differentiable motions, all margins and avoidance distances", "why_tests_cant": "a statement about all motions in continuous time", "anchors": ["mousecore2/src/control.rs: supervise"]}
{"id": "C70", "title": "The supervised jerk is finite", "statement": "In binary32 arithmetic, for finite input and constraint, apply_constraints returns a finite jerk.", "quantifier": "all finite f32 inputs and constraints, any mathematical library", "why_tests_cant": "the failing input (zero acceleration while the constraint is violated) has measure zero", "anchors": ["mousecore2/src/control.rs: apply_constraints (dr * r2 / r)"]}
{"id": "C71", "title": "Dead reckoning follows the exact arc", "statement": "One estimate step moves the position by the exact displacement of a constant-speed, constant-turn-rate arc when the turn rate is at least approx_th (by the straight chord along the mean heading otherwise), plus a sideways slip of tan(slip angle) times that displacement; the slip angle never exceeds in size the old one plus the gyro increment; in exact real arithmetic.", "quantifier": "all states, sensor values and estimator parameters", "why_tests_cant": "continuous state space", "anchors": ["mousecore2/src/estimate.rs: Estimator::estimate"]}
{"id": "C72", "title": "No admissible speed change is faster", "statement": "The acceleration phase planned by the generator takes the least possible time: any motion of the speed from v_start to v_end that starts and ends without acceleration, keeps |acceleration| <= a_max and changes the acceleration at a rate of at most j_max takes at least as long; in exact real arithmetic.", "quantifier": "all positive limits, all speeds and all admissible motions", "why_tests_cant": "quantifies over all motions", "anchors": ["mousecore2/src/trajectory/straight.rs: generate_acceleration"]}
{"id": "C73", "title": "The low speed law decreases the error energy", "statement": "While the low speed law is active and robot and target move as unicycles (the robot with the commanded speed and turn rate), the energy b/2 |position error|^2 + (heading error)^2/2 changes at a rate of at most -k1 (b (error along the heading)^2 + (heading error)^2) plus b |v_r| |lateral error| |heading error|^11/11!, with k1 = 2 zeta sqrt(w_r^2 + b v_r^2); in exact real arithmetic.", "quantifier": "all states, unicycle targets and gains", "why_tests_cant": "continuous state space and derivative in time", "anchors": ["mousecore2/src/control.rs: Tracker::track"]}
{"id": "C74", "title": "A constant speed slalom is straight, curve, straight without gap in time", "statement": "A slalom at constant speed v > 0 yields exactly the samples of the entry straight, then those of the curve starting at (l_start, 0), then those of the exit straight placed at the table's curve end pose, and then None; every target moves with speed v along its own heading. The parameters of every run slalom, square width and speed satisfy the preconditions; in exact real arithmetic.", "quantifier": "all slalom parameters with non-negative straights, all speeds and periods", "why_tests_cant": "continuum of inputs, unbounded sample counts", "anchors": ["mousecore2/src/trajectory/slalom.rs: generate_constant_slalom, SlalomTrajectory"]}
{"id": "C75", "title": "Curve positions follow the integral of the velocity", "statement": "The sampled positions of a curve stay within v*t*e of the exact integral of its velocity, where e is third order in the period (bounded by turning rate, acceleration and jerk limits) up to the rounding of the two Gauss nodes; in exact real arithmetic.", "quantifier": "all curve parameters, periods and samples", "why_tests_cant": "continuum of inputs, unbounded sample counts", "anchors": ["mousecore2/src/trajectory/slalom.rs: CurveTrajectory::next"]}
{"id": "C76", "title": "The curve of a slalom ends where the table says", "statement": "For every slalom kind, direction, square width w > 0 and speed v > 0 (and every search front offset below 45 mm for Search90), a mouse that drives with speed v along the heading of the curve, from the end of the first straight, is at (x_curve_end, y_curve_end) within w / 50000 when the curve ends, which is where the second straight starts; in exact real arithmetic.", "quantifier": "all kinds, directions, square widths, speeds, front offsets below 45 mm", "why_tests_cant": "a continuum of speeds, square widths and offsets; the end point is an integral that a test only approximates", "anchors": ["mousecore2/src/trajectory/slalom.rs: SlalomConfig::new, parameters, generate_curve, generate_constant_slalom"]}
{"id": "C77", "title": "A slalom with terminal velocity hands its speed from part to part", "statement": "generate_slalom_with_terminal_velocity yields the entry straight planned from v_start towards v_middle, then the curve at the speed the entry straight really ends with, then the exit straight planned from that speed towards v_end, placed at the end of the curve; it returns the terminal velocity of the exit straight; in every arithmetic.", "quantifier": "all parameters, speeds, generators and arithmetics", "why_tests_cant": "unbounded sample counts", "anchors": ["mousecore2/src/trajectory/slalom.rs: generate_slalom_with_terminal_velocity"]}
{"id": "C78", "title": "Poses lie at cell centres and wall middles", "statement": "Pose::from_search_state is the middle between the centres of the two cells of the wall, moved by the front offset in the direction of travel; Pose::from_node is a cell centre for the main directions and a wall middle for the diagonals; the heading is the direction of the posture; in exact real arithmetic.", "quantifier": "all supported W, all states and nodes, all square widths and offsets", "why_tests_cant": "continuum of inputs", "anchors": ["mousecore2/src/wall.rs: Pose::from_search_state, Pose::from_node"]}
{"id": "C79", "title": "A clear view of an interior or border wall is always reported", "statement": "If the pose lies in the free space of a cell, is not near a pillar line of sight, has at least 8 mm of free ray before it, and the wall its ray meets first is a wall of the maze, PoseConverter::convert returns Some; in exact real arithmetic, for cells below column and row 128.", "quantifier": "all supported W and all such poses", "why_tests_cant": "continuum of inputs", "anchors": ["mousecore2/src/wall.rs: PoseConverter::convert, is_near_pillar"]}
{"id": "C80", "title": "Stored wall probabilities stay in the unit interval in f32", "statement": "In binary32 arithmetic, whatever the libm returns and whatever readings arrive, every value stored by a WallDetector made by new or with_walls is a finite number between 0 and 1.", "quantifier": "all libm functions, all reading histories, all walls", "why_tests_cant": "unbounded histories, all floating point inputs", "anchors": ["mousecore2/src/wall.rs: Probability::new, detect_and_update, with_walls"]}
{"id": "C81", "title": "A wall detector reading never panics", "statement": "WallDetector::detect_and_update does not panic for finite mean, positive finite standard deviation and finite pose, in binary32 arithmetic.", "quantifier": "all reachable detectors and all finite readings", "why_tests_cant": "the failing inputs need an overflow of both exponents", "anchors": ["mousecore2/src/wall.rs: detect_and_update (Should never fail)"]}
{"id": "C82", "title": "The estimator follows the simulated heading exactly", "statement": "If an Estimator with the simulator's period starts from the simulator's heading and turn rate and is fed with the simulator's sensor outputs after every step, then its heading, turn rate and angular acceleration equal those of the simulator for ever, whatever voltages are applied; in every arithmetic, f32 included.", "quantifier": "all voltage histories, simulators, estimators and arithmetics", "why_tests_cant": "unbounded histories; tests compare with a tolerance", "anchors": ["mousesim2/src/lib.rs: step, angular_velocity, distance", "mousecore2/src/estimate.rs: estimate"]}
{"id": "C83", "title": "The simulated motors are first order lags", "statement": "Under constant voltages the distance of the translational and rotational speed from gain times voltage shrinks by the factor t1/(t1+period) per step, which lies in [0, 1); in exact real arithmetic.", "quantifier": "all numbers of steps and all simulators with positive period and non-negative time constants", "why_tests_cant": "unbounded number of steps", "anchors": ["mousesim2/src/lib.rs: next_trans_vel, next_rot_vel, step"]}
{"id": "C84", "title": "A wall detector fed by the simulator reports only the truth", "statement": "A WallDetector that does not lean to the wrong side (a fresh one, for instance) and is fed with distance_from_wall readings from any sequence of poses reports no wall as existing that the simulator's map does not contain and no wall as absent that it contains; a single reading decides a wall when its two candidate distances differ by 5 mm or more; in exact real arithmetic.", "quantifier": "all maps, all pose sequences, all supported W", "why_tests_cant": "unbounded histories, continuum of poses", "anchors": ["mousesim2/src/lib.rs: distance_from_wall", "mousecore2/src/wall.rs: detect_and_update, convert"]}
{"id": "C85", "title": "Fast tracking makes the error die out", "statement": "While the tracker works above its threshold speed, is fed by the navigation controller and the robot drives along its heading and carries out the commanded speed, acceleration and turn rate, each coordinate of the position error satisfies e'' = -dgain e' - gain e, so that with positive gains speed error and distance decay exponentially at a rate fixed by the gains; and the commanded angular acceleration is the derivative of the commanded turn rate when the state knows the acceleration. In exact real arithmetic, continuous time.", "quantifier": "all gains > 0, all targets and motions over any time interval", "why_tests_cant": "continuum of motions, unbounded time", "anchors": ["mousecore2/src/control.rs: Tracker::track, NavigationController::navigate"]}
{"id": "C86", "title": "The speed controller settles on the simulated motors", "statement": "In the loop measure, control, apply, step, with stable gains (kd = 0 and the two strict inequalities between gains, motor constants and period that place both closed-loop roots inside the unit circle), the translational and rotational speed converge geometrically to every target of constant acceleration and the error sums to the values that make up for the feed-forward error, with constants that depend on motors, gains and period only, as long as the voltage needed for the target leaves a reserve in proportion to the first deviation; for a non-zero acceleration model_k must equal the motor's gain, for constant speed it need not. In exact real arithmetic.", "quantifier": "all stable gains, motors, targets, start speeds and error sums, any number of steps", "why_tests_cant": "unbounded number of steps, continuum of gains and starts", "anchors": ["mousecore2/src/control.rs: Controller::control, control_each", "mousesim2/src/lib.rs: apply, step"]}
{"id": "C87", "title": "Trajectory iterators end in binary32", "statement": "With a positive finite period and a finite end time the straight, spin, curve and stop iterators end, and the i-th sample is taken at a clock reading that differs from i times the period by at most the factor i/2^24.", "quantifier": "all periods and end times; IEEE binary32 arithmetic; all calculators", "why_tests_cant": "all floats; a clock that stands still hangs a test", "anchors": ["mousecore2/src/trajectory/straight.rs: StraightTrajectory::next", "mousecore2/src/trajectory/spin.rs: SpinTrajectory::next", "mousecore2/src/trajectory/slalom.rs: CurveTrajectory::next", "mousecore2/src/trajectory.rs: StopTrajectory::next"]}
{"id": "C88", "title": "The estimator follows the simulator", "statement": "Fed with the simulator's sensors, the estimated speed forgets its first error geometrically and stays within a bound set by the motors, whatever voltages are applied; on straight drives the estimated heading stays exact and the position error changes exactly by period times alpha/(1-alpha) times the drop of the speed error, so it does not grow with the length of the drive.", "quantifier": "all sequences of motor outputs, all simulators and estimators with the same period, all first states; exact real arithmetic", "why_tests_cant": "all lengths of drives and all inputs; the drift bound is exact", "anchors": ["mousecore2/src/estimate.rs: Estimator::estimate", "mousesim2/src/lib.rs: apply, step, sensors", "mousecore2/tests/run.rs"]}
{"id": "C89", "title": "The targets of a whole search are continuous", "statement": "For every search drive, the queue of trajectories joined as in tests/search.rs hands out targets without panic and then ends; it starts at rest at the centre of the start cell, each target is at most one step of the speed limit plus w/8000 from the one before, headings and speeds change by at most one step's worth, also across the joints, and the last target is one step from the pose of the last state.", "quantifier": "all drives of a search robot of any length, square width 90 mm, all front offsets from -5 to 30 mm, all generators with room to stop and start in half a cell; exact real arithmetic", "why_tests_cant": "all move sequences of all lengths and all limits; the tests look at one maze", "anchors": ["mousecore2/tests/search.rs: 168-242, 268-300", "mousecore2/src/trajectory/slalom.rs: SlalomGenerator, SlalomParametersMap", "mousecore2/src/trajectory/straight.rs: StraightTrajectoryGenerator::generate", "mousecore2/src/trajectory/spin.rs: SpinGenerator::generate", "mousecore2/src/trajectory.rs: ShiftTrajectory, StopTrajectory", "mousecore2/src/solve/search.rs: SearchState::update"]}
{"id": "C90", "title": "The targets of a whole run are continuous", "statement": "For every shortest path found, building the trajectories as in tests/run.rs does not panic, and the queue hands out targets without panic from rest at the start pose to the pose of a goal node; neighbouring targets differ by at most one step of the speed limit plus w/150 in position (w/8000 without a FastRun45), by three steps' worth of heading, and by one step's worth of speed plus the planned jump of speed between moves.", "quantifier": "all mazes, goals, cost functions and tie-breaks; all shortest paths of any length; all limits with room for the moves; exact real arithmetic", "why_tests_cant": "all paths of all mazes and all limits; the tests look at one path", "anchors": ["mousecore2/tests/run.rs: 158-210, 228-241", "mousecore2/src/trajectory/slalom.rs: SlalomGenerator::generate_slalom_with_terminal_velocity", "mousecore2/src/trajectory/straight.rs: generate_with_terminal_velocity", "mousecore2/src/solve/run.rs: Dijkstra path, Node::trajectory_kind, Pose::from_node"]}
{"id": "C91", "title": "The targets of a search keep clear of the walls", "statement": "If every wall the mouse passes in a sequence of SearchState moves is open, every target of the joined trajectories of tests/search.rs lies at least 39/100 of a square (35.1 mm) from every wall that is not open, from every pillar at its ends and from the border of the maze.", "quantifier": "all maze sizes, all sets of open walls, all sequences of moves of any length, offsets from -5 mm to 30 mm, all limits and periods with room for the moves; exact real arithmetic", "why_tests_cant": "every sampled target of every route in every maze; the tests only compare end points", "anchors": ["mousecore2/tests/search.rs: 101-114, 230-237, 287-299", "mousecore2/src/trajectory/slalom.rs: SlalomParametersMap, generate_constant_slalom", "mousecore2/src/trajectory/straight.rs", "mousecore2/src/trajectory/spin.rs, stop.rs", "mousecore2/src/solve/search.rs: SearchState::update, Pose::from_search_state"]}
{"id": "C92", "title": "An exploration never plans a target near a real wall", "statement": "Exploring any maze with Searcher, Walls and SearchState as in tests/search.rs, starting with an empty map, the targets of all moves made so far exist and lie at least 39/100 of a square from every wall the maze really has; every exploration ends.", "quantifier": "all mazes agreeing with Walls::new, all goals, all additional observations, all numbers of rounds, the numbers of C91; exact real arithmetic", "why_tests_cant": "safety in all mazes at all times; tests run a few mazes", "anchors": ["mousecore2/tests/search.rs: 101-114, 230-334", "mousecore2/src/solve/search.rs: Searcher::search, Commander::next_coordinate, SearchState::update", "mousecore2/src/wall.rs: Walls::update, wall_state", "mousecore2/src/trajectory/slalom.rs"]}
{"id": "C93", "title": "The targets of a run keep clear of the walls", "statement": "All targets of the joined trajectories of the path returned by run::shortest_path (tests/run.rs) lie at least 34/100 of a square from every wall that is not really open, from every pillar and from the border, provided that the walls is_wall reports as open are open.", "quantifier": "all mazes, start nodes, goals, cost functions and tie breaks, all speeds and periods with at most a fiftieth of a square per period and enough room for the speed changes, any width of the squares; exact real arithmetic", "why_tests_cant": "a distance over a continuum of curves, speeds and periods, for all seven kinds of curves and all paths; tests/run.rs drives one maze", "anchors": ["mousecore2/tests/run.rs: 137-220", "mousecore2/src/solve/run.rs: shortest_path, Node::neighbors, trajectory_kind", "mousecore2/src/trajectory/slalom.rs", "mousecore2/src/wall.rs: Pose::from_node"]}
{"id": "C94", "title": "A run planned on the map of a search keeps clear of the real walls", "statement": "At any time of an exploration of any maze, a run from the start square that shortest_path plans on the map made so far, with unknown walls taken as closed, has only targets that lie at least 34/100 of a square from every wall the maze really has.", "quantifier": "all mazes agreeing with Walls::new, all goals of search and run, all additional observations, all numbers of rounds, all cost functions, the numbers of C93; exact real arithmetic", "why_tests_cant": "connects search, map, path planner and trajectories in all mazes; no test runs them together", "anchors": ["mousecore2/tests/search.rs: 230-334", "mousecore2/tests/run.rs: 137-220", "mousecore2/src/wall.rs: Walls::update, wall_state", "mousecore2/src/solve/run.rs: shortest_path", "mousecore2/src/trajectory/slalom.rs"]}
{"id": "C95", "title": "A run is planned exactly when the goal can be reached from square to square", "statement": "run::shortest_path from a square with one exit, facing it, to goals given as squares (all four directions each) returns a path if and only if some goal square can be reached from the start square by passing from square to square through open walls, and None otherwise: the slaloms and diagonals never lose a way, and lead nowhere else.", "quantifier": "widths up to 8 and larger mazes within the memory of the planner (all runs from the start have at most 16383 moves in all, and at most 1024 nodes or moves dear enough to bound the length of a path), all mazes, start squares with one exit, sets of goal squares, tie breaks and cost functions with non-negative costs whose single moves cost so little that a way over all squares cannot saturate the cost type", "why_tests_cant": "an equivalence over all mazes between two notions of reachability; a missing move would only show up in particular mazes", "anchors": ["mousecore2/src/solve/run.rs: shortest_path, Node::neighbors (successors)", "mousecore2/tests/run.rs: 137-156"]}
{"id": "C96", "title": "Search planner and run planner agree on which mazes are solvable", "statement": "With the goals of the search being the walls of the goal squares (at least the open ones), search::Searcher::shortest_path from the wall (0,1) returns a path exactly when run::shortest_path from the square (0,0) returns one, and exactly when a goal square can be reached from square to square.", "quantifier": "widths up to 8 and larger mazes within the memory of the planner (all runs from the start have at most 16383 moves in all, and at most 1024 nodes or moves dear enough to bound the length of a path), all mazes with the first wall open and the wall right of the start closed, all goal squares other than the first two, cost functions as in C95, all tie breaks", "why_tests_cant": "the two planners use different graphs (walls and runs, nodes with headings and slaloms); their agreement is about all mazes", "anchors": ["mousecore2/src/solve/search.rs: Searcher::shortest_path", "mousecore2/src/solve/run.rs: shortest_path"]}
{"id": "C97", "title": "Every solvable maze is explored and then run", "statement": "In every maze that agrees with Walls::new the exploration loop ends. If a goal square can be reached from square to square it ends successfully, and run::shortest_path then plans, on the map made and with unknown walls taken as closed, a run to a goal square all of whose moves are open in the real maze. If not it ends with a failure.", "quantifier": "widths up to 8 and larger mazes within the memory of the planner (all runs from the start have at most 16383 moves in all, and at most 1024 nodes or moves dear enough to bound the length of a path), all mazes agreeing with Walls::new, all goal squares other than the first two, all additional observations, cost functions as in C95, all tie breaks", "why_tests_cant": "an end-to-end statement over all mazes that connects search, map and run planner; no test runs them together", "anchors": ["mousecore2/tests/search.rs: 230-334", "mousecore2/tests/run.rs: 137-156", "mousecore2/src/wall.rs: Walls", "mousecore2/src/solve/search.rs", "mousecore2/src/solve/run.rs"]}
{"id": "C98", "title": "A run whose numbers leave room can always be driven", "statement": "If every change between two speeds up to the speed of the run fits into 156 thousandths of a square, then for every maze and every path planned by run::shortest_path the trajectories joined as in tests/run.rs hand out targets without panic, starting at rest in the start pose. Each target is one step from the one before, all keep 34/100 of a square from every wall, and the terminal velocity is 0 exactly if the path has at least four nodes; a shorter path ends at full speed. In exact real arithmetic.", "quantifier": "all supported widths, all mazes, starts, goals and costs, all square widths, offsets, generators and run speeds with the room above, periods with v_max * period <= w/50", "why_tests_cant": "a test drives a few paths with one set of numbers; here the speeds of all moves of all paths are bounded, including those that the bisection leaves slightly below the target", "anchors": ["mousecore2/tests/run.rs: 158-210", "mousecore2/src/trajectory/slalom.rs", "mousecore2/src/trajectory/straight.rs"]}
{"id": "C99", "title": "The mouse solves every solvable maze without touching a wall", "statement": "In every maze that agrees with Walls::new the exploration loop of tests/search.rs ends and the targets of its moves keep 39/100 of a square from the walls of the maze. If a goal square can be reached from square to square it ends successfully, run::shortest_path plans a run to a goal square on the map made, and the targets of this run start at rest in the first square, are smooth, and keep 34/100 of a square from the walls of the maze. If not it ends with a failure. In exact real arithmetic.", "quantifier": "widths up to 8 and larger mazes within the memory of the planner (all runs from the start have at most 16383 moves in all, and at most 1024 nodes or moves dear enough to bound the length of a path), all mazes agreeing with Walls::new, goal squares other than the first two, additional observations, costs, tie breaks and numbers as in C91, C95 and C98", "why_tests_cant": "an end-to-end statement over all mazes; no test connects search, map, run planner and trajectories", "anchors": ["mousecore2/tests/search.rs: 230-334", "mousecore2/tests/run.rs: 137-210", "mousecore2/src/wall.rs: Walls", "mousecore2/src/solve/search.rs", "mousecore2/src/solve/run.rs", "mousecore2/src/trajectory/slalom.rs"]}
{"id": "C100", "title": "The speed controller follows every target", "statement": "In the loop measure, control, apply, step, with stable gains as in C86 and model_k and model_t1 equal to the gain and time constant of the simulated motors, the translational and rotational speeds follow every sequence of targets: the deviation is at most C times the sum of rho^n times the first deviation and of the largest amount by which a target differs from what the feed-forward of the target before can bring about (the mismatch between target speeds and target acceleration, plus period^2 / (t1 + period) times the acceleration), as long as the voltage limit leaves a reserve of C times the same amounts. C and rho < 1 depend on motors, gains and period only. In exact real arithmetic.", "quantifier": "all stable gains, motors, target sequences, start speeds and error sums, any number of steps", "why_tests_cant": "unbounded number of steps, continuum of gains and all target sequences", "anchors": ["mousecore2/src/control.rs: Controller::control, control_each", "mousesim2/src/lib.rs: apply, step"]}
{"id": "C101", "title": "The simulated mouse keeps the speed of every straight move", "statement": "With stable gains and exact motor constants, the targets of a straight trajectory (StraightGenerator::generate_with_terminal_velocity, with room as in C33) driven by Controller on the Simulator: the speed never differs from the target's by more than C times the sum of rho^n times the first deviation and of period^2 * (j_max + a_max / (t1 + period)), and the rotational speed from zero neither, as long as the voltage limit is not below (v_max + a_max * t1) / k plus C times the same amounts. In exact real arithmetic.", "quantifier": "all stable gains, motors, limits, distances, start and end speeds with room, and all samples of the trajectory", "why_tests_cant": "connects planner, controller and simulator over a continuum of moves and an unbounded number of steps", "anchors": ["mousecore2/src/trajectory/straight.rs", "mousecore2/src/control.rs: Controller::control, control_each", "mousesim2/src/lib.rs: apply, step"]}
{"id": "C102", "title": "A robot left alone stays where it is", "statement": "A Simulator, Controller and Estimator made by their builders around a state at rest, with the controller asked for no speed and no acceleration, keep the simulated and the estimated position and heading exactly, with all speeds and accelerations zero, for any number of rounds; so does the simulator when no voltage is ever applied. In IEEE binary32 arithmetic. The slip constant must be positive: with slip constant 0 the first estimate at rest has a NaN slip angle.", "quantifier": "all states at rest, all numbers of rounds, all finite parameters with a period between 2^-100 and 2^100, all libm functions with finite sines and cosines and cos 0 other than 0", "why_tests_cant": "unbounded number of rounds, all parameters; tests start with a moving target and compare with a tolerance", "anchors": ["mousesim2/src/lib.rs: builder defaults, step, apply, distance", "mousecore2/src/control.rs: Controller::control", "mousecore2/src/estimate.rs: Estimator::estimate"]}
{"id": "C103", "title": "Moves with ordinary parameters end in binary32 and have finite targets", "statement": "In binary32, with limits, distance, speeds and period in ordinary ranges (speed limit 1/128 to 32, acceleration 1 to 1024, jerk 16 to 65536, distance 1/1024 to 8, period from 1/1024 s to 1 s), StraightGenerator::generate_with_terminal_velocity, StraightGenerator::generate_constant and SpinGenerator::generate give trajectories that yield at least one and at most 2^23 targets, every number of every target is finite, and the returned terminal velocity lies between 0 and the speed limit.", "quantifier": "all f32 values in the ranges, either direction, any libm", "why_tests_cant": "all floats in the ranges; a NaN duration makes a test hang (C37)", "anchors": ["mousecore2/src/trajectory/straight.rs: generate_with_terminal_velocity", "mousecore2/src/trajectory/spin.rs: SpinGenerator::generate"]}
{"id": "C104", "title": "Slaloms with ordinary parameters end in binary32 and have finite targets", "statement": "In binary32, with a sine and cosine that are finite and at most 2 in size, SlalomGenerator::generate_constant_slalom and generate_slalom_with_terminal_velocity give trajectories that yield at least one and at most 3 * 2^23 targets, and every number of every target is finite, when the parameters are in ordinary ranges and the speed in the curve is from a quarter of the reference speed to two and a half times that speed. The speed in the curve lies between the start speed and the middle speed asked for. The parameters that SlalomConfig::new computes are in these ranges for every kind, direction and square width from 1/16 m to 1/2 m (for Search90 with a front offset of at most 1/64 m).", "quantifier": "all f32 values in the ranges, all slalom kinds and directions, any such libm", "why_tests_cant": "all floats in the ranges; a NaN duration makes a test hang", "anchors": ["mousecore2/src/trajectory/slalom.rs: generate_constant_slalom, generate_slalom_with_terminal_velocity, SlalomConfig::new", "mousecore2/src/trajectory.rs: ShiftTrajectory"]}
{"id": "C105", "title": "The estimate stays finite in binary32", "statement": "In binary32, with a sine and cosine that are finite and at most 2 in size and a cosine that is never nearer to 0 than 2^-40, an Estimator made by its builder (period 1/1024 s to 1/64 s, alpha from 0 to 1023/1024, positive slip constant, threshold of at least 1/1024) keeps every number of the estimated state and the slip angle finite for up to 2^20 calls, when each reading is ordinary (wheel steps of at most 1/16 m, acceleration of at most 256 m/s^2, angular velocity of at most 64 rad/s) and the first state is within 64 m. The speed stays within 131072 m/s. A reading whose acceleration is not a number makes the speed NaN for ever.", "quantifier": "all sequences of ordinary readings of up to 2^20 readings, all f32 parameters in the ranges, any such libm", "why_tests_cant": "all sequences of readings and all floats in the ranges, including speeds of exactly 0, where the code divides by 0", "anchors": ["mousecore2/src/estimate.rs: Estimator::estimate"]}
{"id": "C106", "title": "Navigation, tracking and control give finite voltages in binary32", "statement": "In binary32, with a sine and cosine that are finite and at most 2 in size, NavigationController::navigate, Tracker::track and Controller::control, called one after the other in each period, give finite voltages for both motors in each of the first 2^23 periods, whatever the states and targets are, as long as these are ordinary (within 1024, jerks and angular accelerations within 2^20, headings within 2^24), the gains are at most 1024 in size, the damping constant b is not negative and the threshold and model gains are at least 1/1024. A reference or measured speed that is not a number makes both voltages NaN in every later call until the next reset.", "quantifier": "all sequences of up to 2^23 pairs of an ordinary state and an ordinary target, all f32 parameters in the ranges, any such libm", "why_tests_cant": "all sequences and all floats in the ranges; both branches of the tracker, whose state grows with time", "anchors": ["mousecore2/src/control.rs: NavigationController::navigate, Tracker::track, normalize_angle, sinc, Controller::control, control_each"]}
{"id": "C107", "title": "The message of a parse error tells where and what", "statement": "When parsing a maze fails, the Display text of the error names, in decimal without leading zeros, the line (counted from 1) and the range of characters (counted from 0) of the first place in reading order that is not allowed, and lists in backquotes exactly the pieces allowed there. Displaying never panics. Two failing parses, also of mazes of different sizes, have the same text only if they have the same error.", "quantifier": "all supported W and all input strings", "why_tests_cant": "all strings", "anchors": ["mousecore2/src/wall.rs: Display for ParseWallsError, FromStr for Walls"]}
{"id": "C108", "title": "The simulator stays finite in binary32", "statement": "In binary32, with a sine and cosine that are finite and whose squares add up to at most 4097/4096, everything that can be read from the simulator (states, encoder distances, angular velocity, translational acceleration) is finite after up to 2^23 calls of step and of applying voltages that are not NaN (infinite ones included), for ordinary start states and parameters, and the speeds stay within 4194304. A NaN voltage makes the position and the speed NaN at the next step and for ever, whatever is applied later.", "quantifier": "all sequences of up to 2^23 calls, all f32 voltages, start states and parameters in the ranges, any such libm", "why_tests_cant": "all sequences and all floats; the filter divides by a time constant plus the period and could drift", "anchors": ["mousesim2/src/lib.rs: apply, step, next_trans_vel, next_rot_vel, distance, angular_velocity, translational_acceleration"]}
{"id": "C109", "title": "Angles are normalised exactly in binary32 except small negative ones", "statement": "In binary32 normalize_angle of any finite angle is finite, greater than -pi and at most pi (the f32 constant), and differs from the given angle by a whole number of turns (of twice that constant): exactly for angles that are not negative, up to 2^-21 for negative ones. An angle in (0, pi] comes back bit for bit. A negative angle above -2^-22 comes out as 0. An infinite angle or NaN gives NaN.", "quantifier": "all f32 values", "why_tests_cant": "all 2^32 floats; the remainder of huge angles is exact only by an argument about mantissas", "anchors": ["mousecore2/src/control.rs: normalize_angle"]}
{"id": "C110", "title": "The voltmeter stays in the range of its readings in binary32", "statement": "In binary32, for a period in [0, 1024] and a cut-off frequency in [0, 2^20], if every reading converts to a number from 0 to 2^k (k from 0 to 70), then the voltage reported after the 100 readings of the constructor and after any number of updates is a number from 0 to 2^k: the rounding errors of the filter do not pile up. In particular with 12-bit readings and a divider ratio from 0 to 2^j the voltage stays between 0 and 2^(j+2) for ever and is never NaN.", "quantifier": "all ADC behaviours that do not fail, any number of updates, all f32 parameters in the ranges", "why_tests_cant": "unbounded number of updates, all readings", "anchors": ["sensors2/src/voltmeter.rs: Voltmeter::new, update_voltage, current_voltage"]}
{"id": "C111", "title": "Calibration and readings of the inertial sensor in binary32", "statement": "In binary32, from offsets within 48, a successful calibrate sets each offset to the mean of the 1000 converted readings up to D/16384 + 2^-15, where D (at most 127) is the largest distance of a reading from the old offset. Calibrating twice, as init does, brings the error down to w/8192 + 1/32000 when the readings are within w of one value, whatever the offset was before. After any sequence of calls, finished or not, the offsets are numbers within 48, and every angular velocity and acceleration is a number within 84 and within 2^-15 of the exact conversion of the transferred bytes minus the offset.", "quantifier": "all sequences of calls, all bus behaviours with byte answers, all f32 offsets within 48", "why_tests_cant": "all 2^16000 possible series of readings, unbounded number of calibrations; rounding errors of sums of 1000 numbers", "anchors": ["sensors2/src/imu.rs: calibrate, init, angular_velocity, translational_acceleration"]}
{"id": "C112", "title": "The whole loop of the search test is safe", "statement": "In exact real arithmetic, for any controllers, estimators, trajectories, sensor poses and number of rounds of the loop of the search test: the map never contradicts the simulated maze; the mouse is always planned to cross an opening that can be reached from the start; every change of the planned state is a legal move to an opening; in a maze with a way to a goal the loop panics only when no trajectory is left or when an indecisive reading has erased the opening of the start square while the mouse stands there. When the loop ends by its break, both paths compared by the final assertion of the test exist, are best routes of the true maze and have the same length.", "quantifier": "all supported widths, goals, mazes, parameters, sensor poses, trajectories and numbers of rounds", "why_tests_cant": "the test drives two mazes with one set of parameters; sensing, mapping and planning interact over unboundedly many rounds", "anchors": ["mousecore2/tests/search.rs: loop 254-345", "mousecore2/src/wall.rs: detect_and_update, update", "mousecore2/src/solve/search.rs: search, next_coordinate, shortest_path"]}
{"id": "C113", "title": "The loop of the run test only reads numbers from the simulator", "statement": "In binary32, with simulator parameters and an initial state of ordinary size, as long as the loop of the run test goes on (up to 2^22 rounds), the state of the simulator and everything read from it is finite, whatever the controllers, trajectories and estimator do, because the assertion on the voltages stops NaN and infinities. Every completed round applied finite voltages of at most the threshold in size.", "quantifier": "all controllers, estimators, trajectories, initial states and parameters within the stated ranges, all mazes, up to 2^22 rounds", "why_tests_cant": "two runs with one set of parameters; NaN from the controller appears only in unusual states", "anchors": ["mousecore2/tests/run.rs: loop 212-256", "mousesim2/src/lib.rs: apply, step, distance, translational_acceleration, angular_velocity"]}
{"id": "C114", "title": "Which shortest path is returned, and the final assertion of the search test", "statement": "Of all shortest routes to a goal, shortest_path returns the one that is first when at the first difference the earlier direction (north-east, south-west, north-west, south-east, straight up or right, straight down or left), and in the same direction the shorter run, is preferred; there is only one such route. When search returns None, shortest_path gives the same path with unknown walls taken as walls, taken as openings, and in every maze in which the known walls are as known. Hence (in exact real arithmetic) the assertion at the end of the search test holds whenever the loop is left by its break, with an empty or a saved map at the beginning: the path on the map equals the path in the simulated maze.", "quantifier": "all supported widths, starts, goals, mazes and partial maps; for the assertion also all controllers, estimators, trajectories, sensor poses and numbers of rounds", "why_tests_cant": "the test compares the two paths in two mazes; that ties between shortest routes are always broken the same way on a partial map and on the complete maze needs all of them", "anchors": ["mousecore2/src/solve/search.rs: shortest_path, extended_neighbors, search", "mousecore2/tests/search.rs: 336-345"]}
{"id": "C115", "title": "A search can be resumed with a saved map", "statement": "In exact real arithmetic, the loop of the search test begun with a map saved earlier that does not contradict the maze, with the detector made from it by with_walls and the mouse planned to cross any reachable opening known to the map: the map never contradicts the maze, no wall known at the beginning is forgotten, the mouse is always planned to cross an opening that can be reached from the start, and in a maze with a way to a goal the loop panics only when no trajectory is left.", "quantifier": "all supported widths, goals, mazes, saved maps, positions, parameters, sensor poses, trajectories and numbers of rounds", "why_tests_cant": "the tests never resume a search; an erased wall would show only after some indecisive readings", "anchors": ["mousecore2/src/wall.rs: with_walls, detect_and_update, update", "mousecore2/tests/search.rs: loop 254-334"]}
{"id": "C116", "title": "The search test follows exactly the joined trajectories of its moves, clear of the walls", "statement": "In exact real arithmetic, in the loop of the search test (from an empty or a saved map): the targets for which the simulator is driven in n rounds are the first n targets of the first trajectory followed by the trajectories of the moves made, each placed at the pose of the state it leaves; no move is skipped, cut short, repeated or driven from another place. In every arithmetic (binary32 included) the same holds from all variables with which no search is under way while a trajectory waits, without saying which moves are made. With the trajectories of the test and numbers with which they can be driven, these targets begin at rest in the start square, run on without jumps and keep 39/100 of a square away from every wall of the simulated maze.", "quantifier": "all supported widths, goals, mazes, saved maps, controllers, estimators, sensor poses and numbers of rounds; for the distances all parameters that leave room", "why_tests_cant": "the test asserts nothing about the targets; a lost or overwritten trajectory needs a particular interleaving of sensing and driving", "anchors": ["mousecore2/tests/search.rs: loop 254-334", "mousecore2/src/trajectory.rs", "mousecore2/src/solve/search.rs: SearchState::update"]}
{"id": "C117", "title": "The run test follows all targets of its path, clear of the walls", "statement": "In every arithmetic (binary32 included) the loop of the run test drives the simulator for the targets of its queue of trajectories one by one and is left by its break after the last; it stops before only because the supervisor fails or a voltage exceeds the threshold. In exact real arithmetic, with numbers that leave room for every change of speed, the targets followed start at rest, run on without jumps to the goal and keep 34/100 of a square away from every wall.", "quantifier": "all queues of trajectories, controllers, estimators, supervisors and numbers of rounds; for the distances all mazes, costs and parameters that leave room", "why_tests_cant": "two paths with one set of parameters are driven, and nothing is asserted about the targets", "anchors": ["mousecore2/tests/run.rs: loop 212-256"]}
{"id": "C118", "title": "The search test makes finitely many moves", "statement": "In exact real arithmetic, in the loop of the search test, from an empty or a saved map: however many rounds are run, the planned state of the mouse changes in at most 8 W^2 (2 W^2 + 1) of them, where W is the width of the maze. From some round on no move is planned any more, however long the loop still runs. So the mouse never drives in circles: it cannot run between the same squares for ever, even if the sensors show it nothing new.", "quantifier": "all supported widths, goals, mazes (with or without a way to a goal), saved maps, controllers, estimators, trajectories, sensor poses and numbers of rounds", "why_tests_cant": "a bound for all mazes and all sequences of readings; a test that runs for ever does not fail", "anchors": ["mousecore2/tests/search.rs: loop 254-334", "mousecore2/src/solve/search.rs: Searcher::search, SearchState::update", "mousecore2/src/wall.rs: detect_and_update 161"]}
