# Formal model of mouse_components in Rocq (Coq 8.16.1)

Source: `/repo` (workspace members `mousecore2`, `mousesim2`, `sensors2`; the
`obsolete/` tree is not part of the Cargo workspace and is not modelled).

## Conventions

* A Rust function becomes a total Gallina function. `&mut` arguments are
  returned. `Option`/`Result` stay data.
* Every panic (`unwrap`, `expect`, `unreachable!`, index out of bounds, fixed
  capacity `heapless` container overflow, checked integer overflow of a debug
  build) is an explicit value: functions that can panic live in the monad
  `res A = Ret a | Panic | Fuel`. `Fuel` is only produced when a loop runs out
  of the explicit fuel; it is a different value from every normal result and
  the theorems prove it never occurs.
* `u8`/`i8`/`u16`/... are `Z` with the wrap or check written out where the code
  wraps (`as u8`, `<<` on u8) or checks (`checked_add`, debug overflow).
* Callbacks (`is_wall`, `wall_state`, `is_goal`, `into_cost`) are arbitrary
  Gallina functions, i.e. assumed pure and total. They are total on *raw*
  coordinates, also those `Coordinate::new` rejects, because the code can pass
  such values.
* Physical quantities (`f32` wrapped by `uom`) use code written once over a
  record of arithmetic operations (`Num`), instantiated with
  (a) the real numbers (ideal arithmetic) for the kinematic, geometric and
  filtering claims; claims proved only there say "in exact real arithmetic";
  (b) IEEE-754 binary32 (Flocq) for claims about NaN, infinities and rounding.

## Plan per property

| id | modelled | proof idea |
|----|----------|------------|
| C01-C02 | `Coordinate::new`, `as_index` bit by bit | bit-level to arithmetic lemma, injectivity by div/mod |
| C03-C06 | `Walls` as a 512-byte array with the 2-bit packing | byte-lane lemmas, induction over update histories; C06 refuted by a byte 0b10 |
| C07-C10 | `Display`, `FromStr` over byte strings | induction over rows/columns; C10 refuted by the empty text |
| C11-C15 | `bfs_tree`, `extended_neighbors`, `shortest_path` with queue, tables and capacities | BFS invariant with direction pruning; layer argument; C14 refuted |
| C16-C21 | `unchecked_walls`, `intermediate_coords`, `candidates`, `search` | reuse of BFS theorem; second BFS invariant; C17, C18 refuted |
| C22-C24 | `Commander`, `SearchState::update`, exploration loop with ideal sensing | lexicographic measure on (unknown walls, distance, facing) |
| C25, C31 | poses, slalom table, over R | case analysis, bounds on sqrt 2 |
| C26-C30 | `Node`, `successors`, `trajectory_kind`, Dijkstra with bounded heap and arbitrary tie-breaking | Dijkstra invariant; each move enters the heap at most once, which bounds the heap for W <= 8 and for mazes with few moves; C30 refuted by an overflow witness at W = 32 and by a path that is too long at W = 16 |
| C76 | slalom table, curve generator | closed form of the turn by time scaling, bisection replayed on rationals, Gauss sums bounded in integers |
| C85 | fast tracking with the navigation controller | derivatives of the command, linear error equation, Lyapunov function |
| C86 | speed controller in a loop with the simulator | equality with a linear recursion while no voltage is clipped, Lyapunov function for recursions of order two |
| C87 | iterators over binary32 | relative error of each addition, induction; refuted by a clock that stands still |
| C88 | `tracks` over the simulator and estimator | recurrence of the filtered speed, induction over the outputs |
| C89 | `search_route`, `route_next` | each trajectory is a ride between two poses; rides join; induction over the drive |
| C90 | `run_route`, `route_next` | the same, with the chain of poses of a shortest path (C27) |
| C91 | `search_route` | cells in the frame of the mouse: a point of a cell is clear if it is clear of the corners and of the closed sides; straights stay on the centre line, a curve stays on its side of its chord and of its tangents |
| C92 | `round`, `explore`, `search_route` | the invariant of C23 (the wall the mouse stands on is really open) with C91 |
| C93 | `run_route` | the curves of the table are followed on a grid of 120 intervals whose Gauss sums are compared in integers with the sides of the squares around them; straights on units of the grid; induction over the path |
| C94 | `round`, `run_path`, `run_route` | the map of an exploration is true (C23) with C93 |
| C95 | `run_path` | a way without repeated squares is covered by runs of curves: induction over its directions, two or three at a time, with the facing kept; the converse move by move; then the bound of C29, or at larger widths that of C30: the way over squares bounds the cost of the best path and so its length |
| C96 | `shortest_path` of both planners | walls of a route share squares; walls crossed by a way are adjacent |
| C97 | `round`, `explore`, `run_path` | what the map knows it keeps, so the run planner sees the route C23 found; C96 |
| C98 | `run_speeds`, `run_leg`, `run_route` | bounds on the speed before each move (up to v_max/2^25 below the speed of the run, then braking exactly) give the room C90 and C93 ask for; the last speed is 0 exactly from four nodes on |
| C99 | `explore`, `search_route`, `run_path`, `run_route` | C92, C97 and C98 on the map of the exploration |
| C100, C101 | `control`, `apply`, `step`, `straight_next` | the loop of C86 pushed by the mismatch of the targets: superposition of geometric responses; on straight moves the mean value theorem bounds the mismatch |
| C102 | `simulator_new`, `estimator_new`, `controller_new`, `control`, `apply`, `step`, `estimate` | binary32: zeros of either sign are closed under the operations used, c / 0 = inf makes the slip angle 0, adding a zero keeps a value |
| C103 | `generate_tv`, `straight_generate_tv`, `straight_generate_constant`, `spin_generate`, `calculate` | binary32: an operation whose exact result lies between two representable numbers stays between them; the bisection for the peak speed ends above 1/256 because every speed up to 1/128 fits into the distance; then the clock of C87 |
| C104 | `generate_constant_slalom`, `generate_slalom_tv`, `generate_curve`, `curve_next`, `shift`, `parameters` | binary32: the plan of C103 for the turning limits scaled to the speed; a position after n steps is at most 256 (n + 1) in size; sine and cosine are only asked to be finite and at most 2 in size for finite angles |
| C105 | `estimate`, `estimator_new` | binary32: the filter contracts because alpha is at most 1023/1024; a division by a zero speed gives a denominator of plus infinity and a slip angle of 0; positions by induction on the number of calls |
| C106 | `navigate`, `track`, `normalize_angle`, `sinc`, `control`, `control_each` | binary32: each number gets a power of two as bound; the two accumulators (xi and the error sums) grow by at most one such bound a period; the remainder is exact |
| C107 | `perr_display` (MsgModel.v) | the place from the proof of C09; decimal digits read back; unique splitting at the first character that is not a digit |
| C108 | `step`, `apply` (SimModel.v) | binary32: the filters contract by at least 1023/1024 a step, which leaves room for the rounding errors; positions grow by a bounded amount a step; the speed is recovered from the components up to the error of sine and cosine |
| C109 | `normalize_angle`, `f32_rem` | binary32: the remainder is representable (its mantissa is below the smaller of the two); folding the upper half down is a Sterbenz subtraction |
| C110 | `vm_new`, `vm_update` | binary32: the two rounded weights add up to less than the middle between 1 and its successor, so a sum below a power of two is rounded back to it |
| C111 | `calibrate`, `calib_loop`, `angular_velocity`, `translational_acceleration` | binary32: one rounding error for each conversion, difference and addition; the driver proof of C63 repeated over any numbers |
| C112 | `search_period`, `search_rounds`, `decide`, `detect_walls` (loop of tests/search.rs) | invariant of the whole loop: map true or unknown, detector sound, planned state reachable; exact real arithmetic |
| C113 | `run_period`, `run_rounds` (loop of tests/run.rs) | binary32: the bound of C108 along the rounds; the assertion lets only finite voltages pass |
| C114 | `shortest_path`, `search`, `search_rounds` | the queue holds the coordinates in the order of their first routes; tie-breaking stated as an order of routes in `FirstSpec.v`; the assertion for the loop in exact real arithmetic |
| C115 | `with_walls`, `search_rounds` | the invariant of C112 from a saved map (`ResumeSpec.v`); decided beliefs stay decided; exact real arithmetic |
| C116 | `search_period`, `take_target`, `decide`, `search_route` | the queue of two of the loop refines the queue of all moves of `RouteModel.v` (which justifies the simplification made there); then C89 and C91; exact real arithmetic |
| C117 | `run_period`, `route_next`, `run_route` | induction over the rounds in every arithmetic; then C98 in exact real arithmetic |
| C118 | `search_period`, `decide`, `detect_walls`, `search`, `ss_update` | a measure that falls with every move: walls the detector is not sure of, then the distance to the nearest unknown wall, then whether the mouse has just turned back; exact real arithmetic |
| C32-C41 | trajectory planners and iterators over R; C37 over binary32 | piecewise polynomial algebra, bisection invariants |
| C42-C47 | controllers over R | closed forms by induction; projection algebra; C47 refuted |
| C48-C55 | estimator, detector, converter, simulator over R; C55 over binary32 | induction over histories; trigonometric sign analysis; C52, C55 refuted |
| C56-C60 | encoder (Z), motor and voltmeter (R and binary32) | modular arithmetic; C57, C59 refuted |
| C61-C65 | IMU and TOF drivers against an arbitrary bus oracle, with traces | induction over the trace; C65 refuted with a device model |

## Files

| files (`rocq/theories`) | content |
|---|---|
| `Base`, `Num` | Rust primitives (panic monad, arrays, machine integers); arithmetic, with a real and a binary32 instance |
| `SearchModel`, `RunModel`, `WallsModel`, `SensorsModel`, `ControlModel`, `TrajModel`, `RouteModel`, `DetectModel`, `SimModel`, `ExploreModel`, `MsgModel` | the model, one comment with file and lines per definition |
| `*Spec`, `SearchExt` | vocabulary of the statements (graphs, legal moves, shortest segments, motions, ...), independent of the model's helpers |
| `Props*` | the theorems `Cnn_*`, the examples `Cnn_case*` and `Print Assumptions` of each theorem |
| all others | proofs |

## What is modelled, and what is simplified

Every public function of the workspace is modelled except those listed at the end of this
section.

* **Integers.** `Z`, with range checks written out. Arithmetic that overflows is a panic (a debug
  build); casts with `as` wrap or saturate as Rust defines. `usize` is 32 bits wide where its size
  matters (`remquof`, control.rs 283; the line number in a parse error, wall.rs 579).
* **Panics.** A theorem that speaks of a result also says that there is one; no theorem is true
  because the model panics.
* **Callbacks** are functions of their argument; in the search solver they may panic, in the run
  solver `is_goal` and `into_cost` are total. A callback with internal state is not covered.
* **heapless containers.** `Vec`, `Deque` and `BinaryHeap` are lists with a capacity. `BinaryHeap::pop`
  returns an entry of least cost; which of several is decided by an arbitrary oracle (`tie`), over
  which all theorems quantify.
* **Numbers.** Code with `f32` is written once over the record `ops`. Units (`uom`) are erased;
  a quantity is its value in SI base units, and `degree` is multiplication by pi/180. With the
  instance `Rops` the operations are those of the real numbers: claims of this kind say "in exact
  real arithmetic" and do not bound rounding errors. With `Fops` they are IEEE-754 binary32 from
  Flocq (round to nearest even, one NaN), and the functions of libm and micromath are arbitrary
  functions. In `Rops`, `sin`, `cos`, `exp`, `sqrt`, `atan2` are the mathematical functions, although
  micromath only approximates them. A literal is a fraction; in `Fops` it is the quotient of the two
  rounded integers, which is the correctly rounded literal (for the long literals of the slalom table
  this was compared outside Coq, and three of them are written as 3n/3d to make it so).
* **Trajectories** (trajectory.rs, straight.rs, spin.rs, slalom.rs). The two instances of the macro of
  straight.rs have the same text and share one definition. An iterator is a function from a state
  to an optional item and a state. `core::iter::Chain` is modelled as documented.
* **Wall detector** (wall.rs 76-470). An infinite distance is `None`; `sort_unstable_by`
  keeps the order of equal distances in the model (unspecified in Rust; a wall is only reported when
  the two smallest distances differ, so the order has no effect); `f32::min` ignores a NaN.
* **Sensors.** Peripherals (embedded-hal traits) are arbitrary state machines; a driver is run against
  every peripheral and the theorems speak about the trace of transfers. `wait_ok!` and `nb::block!`
  loops have fuel, and the theorems say what fuel suffices for.
* **Simulator.** The pose converter is always the default one (the builder sets it), so it is not part
  of the state.
* **Exploration loop** (tests/search.rs 254-334). Only the discrete part is modelled: between a search
  and the next decision the mouse is inside the cell ahead, so the walls of that cell are known and
  true by then; sensors may reveal an arbitrary list of other true walls in each round. Driving,
  control and sensing of the test are not part of C23.
* **Loops of the integration tests** (`LoopModel.v`: tests/search.rs 254-334, tests/run.rs 212-256). One
  round is one function from the variables of the loop to the next ones, with estimator, tracker,
  controller, trajectories, detector, map, search and simulator as modelled elsewhere. The values
  built before the loop are arbitrary. The final assertion of the search test is the pair of `path_on`
  in `LoopSpec.v`. Joining trajectories before the loop of the run test is in `RouteModel.v`.

Not modelled: the `obsolete/` tree (not in the Cargo workspace); unit tests; parsing and
printing in the integration tests; `advance_by` of the iterators (compiled on nightly only, and slalom.rs 298 names a type `M` that does not exist there); `Debug`, `Clone`, `Serialize` and `TypedBuilder` derives;
`PoseConverter::new` with other values than the default ones is modelled, but it is private and the
theorems speak about the default converter.

## Statuses in MANIFEST.json

`proved`: the English statement is proved as it stands. `partial`: either the statement is false of
the code, then `..._refuted` proves a counterexample and `..._partial` the true part; or only the part
named in the note is proved.

## Trusted base

* Coq 8.16.1's kernel, including its virtual machine (`vm_compute` is used), and `coqc`.
* The Coq standard library and Flocq (binary32). No axiom is declared in this development, and none
  of another library than the standard library is used.
* The reading of the Rust source, cited per definition, and the semantics above for `core`, `heapless`,
  `uom`, `nb`, `embedded-hal`, `micromath`.

`Print Assumptions` (printed by the build for each theorem) gives one of these answers.

*Closed under the global context* (no axioms):

`C01_coordinate_new`, `C02_storage`, `C03_update`, `C03_history`, `C04_new`, `C05_bytes`,
`C05_length`, `C06_any_bytes_refuted`, `C06_any_bytes_partial`, `C07_parse_display`,
`C07_identity`, `C08_display_parse`, `C09_parse_errors`, `C10_complete_refuted`,
`C10_complete_partial`, `C11_path_legal`, `C12_path_optimal`, `C13_path_complete`,
`C14_start_is_goal_refuted`, `C14_start_is_goal_partial`, `C15_no_panic`, `C16_done_is_optimal`,
`C17_done_when_known_refuted`, `C17_done_when_known_partial`, `C18_valid_callbacks_refuted`,
`C18_valid_callbacks_partial`, `C19_nearest_first`, `C20_candidates`, `C21_err_iff`,
`C21_no_spurious_err`, `C22_next_coordinate`, `C23_exploration`, `C24_search_state`,
`C26_node_new`, `C26_node_ids`, `C27_successors`, `C28_sound`, `C28_ends`, `C29_optimal`,
`C30_large_refuted`, `C30_large_partial`, `C38_iterator`, `C42_history`, `C42_reset`,
`C50_latched`, `C50_unchanged`, `C57_encoder_total_refuted`, `C57_encoder_total_partial`,
`C61_selected`, `C61_deselects`, `C62_decode`, `C63_all_or_nothing`, `C64_protocol`,
`C64_at_most_one`, `C65_reinit_refuted`, `C65_reinit_partial`, `C67_imu_no_panic`,
`C77_slalom_tv`, `C82_heading`, `C95_run_complete`, `C96_planners_agree`, `C97_solved`,
`C107_message`, `C107_distinct`, `C114_first`, `C114_only`, `C114_settled`, `C116_any`,
`C117_followed`, `C118_rounds`.

*Axioms of the standard library*: `ClassicalDedekindReals.sig_forall_dec`,
`ClassicalDedekindReals.sig_not_dec`, `Classical_Prop.classic`,
`FunctionalExtensionality.functional_extensionality_dep`:

`C25_refuted`, `C25_search_moves_partial`, `C25_standard_maze_partial`, `C31_run_moves`,
`C32_speed_change`, `C33_refuted`, `C33_straight_partial`, `C33_mirror`, `C34_refuted`,
`C34_feasible_partial`, `C35_terminal_velocity`, `C36_straight`, `C36_spin`, `C36_curve`,
`C36_stop`, `C37_refuted`, `C37_finite_partial`, `C38_pose`, `C38_norms`, `C38_heading`,
`C38_compose`, `C39_curve`, `C39_table`, `C40_parameters`, `C40_constant`,
`C40_terminal_velocity`, `C41_spin_partial`, `C41_refuted`, `C42_integral`, `C43_normalize`,
`C44_sinc`, `C45_navigate`, `C45_errors_only`, `C45_track_slow`, `C45_track_fast`, `C45_measured`,
`C46_satisfied`, `C46_projection`, `C46_infeasible`, `C47_corners_refuted`, `C47_corners_partial`,
`C48_heading`, `C48_speed`, `C48_acceleration`, `C48_decay`, `C49_bayes`, `C49_others`,
`C49_order`, `C49_answer`, `C49_start`, `C50_threshold`, `C50_with_walls`, `C51_ray`,
`C52_outside_refuted`, `C52_outside_partial`, `C53_bounded`, `C53_apply`, `C54_motion`,
`C55_voltage_refuted`, `C55_voltage_partial`, `C56_encoder_history`, `C58_motor`,
`C59_zero_voltage_refuted`, `C59_zero_voltage_partial`, `C60_voltmeter`, `C63_calibrate`,
`C66_motor_f32`, `C68_supervise`, `C69_barrier`, `C70_jerk_finite_refuted`,
`C70_jerk_finite_partial`, `C71_arc`, `C71_straight`, `C71_slip`, `C72_optimal`, `C73_energy`,
`C74_slalom`, `C74_table`, `C75_quadrature`, `C76_curve_end_refuted`, `C76_curve_end_partial`,
`C78_search_pose`, `C78_node_pose`, `C79_complete`, `C80_stored`, `C81_panic_refuted`,
`C81_panic_partial`, `C81_panic_iff`, `C81_ordinary_partial`, `C83_lag`, `C84_truth`, `C84_start`,
`C84_decides`, `C85_decay`, `C85_linear`, `C85_alpha`, `C86_servo`, `C87_refuted`, `C87_clock`,
`C87_ends_partial`, `C88_speed`, `C88_straight`, `C89_search`, `C90_run`, `C91_clear`,
`C92_exploration`, `C93_run`, `C94_after_search`, `C98_brisk`, `C99_mouse`, `C100_follow`,
`C101_straight`, `C102_still`, `C102_untouched`, `C102_noslip`, `C103_straight`, `C103_spin`,
`C103_constant`, `C104_constant`, `C104_terminal`, `C104_middle`, `C104_table`, `C104_search`,
`C105_finite`, `C105_nan`, `C106_finite`, `C106_nan`, `C108_finite`, `C108_nan`, `C109_angle`,
`C109_same`, `C109_lost`, `C109_nan`, `C110_bound`, `C110_range`, `C111_calibrate`,
`C111_bounded`, `C111_twice`, `C112_rounds`, `C112_moves`, `C112_end`, `C113_simulated`,
`C113_round`, `C114_assertion`, `C115_rounds`, `C116_followed`, `C116_drive`, `C117_drive`,
`C118_bound`, `C118_rests`.

## Wrong programs

`seeded/LOG.jsonl` has one line per edit of a model definition, made in a scratch copy outside
this directory. `claim` names the claim that the edit makes false. `first_failing_lemma` are the
lemmas (file.name) whose proofs stop working; such a lemma is admitted in the scratch copy to see
what fails after it. `theorems_failed` are the property theorems whose proofs use a failing lemma
or fail themselves (computed from the dependency information of the compiler), so it may contain
theorems beyond the ones aimed at. `theorems_tightened` names theorems that had to be made stronger because
they survived an edit. Edits that leave the claims true are marked in `note`.
Entries with the note "Automatic edit" come from a list of 785 mechanical edits (of operators,
literals, branches). Each build stopped at its first failing lemma, and `claim` was not chosen
beforehand: it is the property of the affected theorem with the fewest dependencies. The 45
of them that do not typecheck are left out.
