{
 "claims": [
  {
   "property": "C01",
   "status": "proved",
   "theorems": [
    "C01_coordinate_new"
   ],
   "note": ""
  },
  {
   "property": "C02",
   "status": "proved",
   "theorems": [
    "C02_storage"
   ],
   "note": ""
  },
  {
   "property": "C03",
   "status": "proved",
   "theorems": [
    "C03_update",
    "C03_history"
   ],
   "note": ""
  },
  {
   "property": "C04",
   "status": "proved",
   "theorems": [
    "C04_new"
   ],
   "note": ""
  },
  {
   "property": "C05",
   "status": "proved",
   "theorems": [
    "C05_bytes",
    "C05_length"
   ],
   "note": ""
  },
  {
   "property": "C06",
   "status": "partial",
   "theorems": [
    "C06_any_bytes_refuted",
    "C06_any_bytes_partial"
   ],
   "note": "The property is false: a 2-bit group equal to 2 is accepted and makes wall_state hit unreachable! (refuted). It holds when no group is 2."
  },
  {
   "property": "C07",
   "status": "proved",
   "theorems": [
    "C07_parse_display",
    "C07_identity"
   ],
   "note": "For every Walls value whose states can all be read; a value for which wall_state panics (C06) cannot be displayed."
  },
  {
   "property": "C08",
   "status": "proved",
   "theorems": [
    "C08_display_parse"
   ],
   "note": ""
  },
  {
   "property": "C09",
   "status": "proved",
   "theorems": [
    "C09_parse_errors"
   ],
   "note": ""
  },
  {
   "property": "C10",
   "status": "partial",
   "theorems": [
    "C10_complete_refuted",
    "C10_complete_partial"
   ],
   "note": "The property is false: a text with too few lines, even the empty one, is accepted (refuted). The partial theorem says what an accepted text guarantees."
  },
  {
   "property": "C100",
   "status": "proved",
   "theorems": [
    "C100_follow"
   ],
   "note": "In exact real arithmetic, with the exact motor constants in the controller and kd = 0."
  },
  {
   "property": "C101",
   "status": "proved",
   "theorems": [
    "C101_straight"
   ],
   "note": "In exact real arithmetic, with the exact motor constants in the controller and kd = 0. The room asked for is that of C33_straight_partial. The controller is fed the speed and acceleration of the targets, as the tracker does on the target (C45)."
  },
  {
   "property": "C102",
   "status": "proved",
   "theorems": [
    "C102_still",
    "C102_untouched",
    "C102_noslip"
   ],
   "note": "In binary32. The controller measures the simulated state."
  },
  {
   "property": "C103",
   "status": "proved",
   "theorems": [
    "C103_straight",
    "C103_spin",
    "C103_constant"
   ],
   "note": "In binary32. Outside these ranges C37 and C41 give moves that never end."
  },
  {
   "property": "C104",
   "status": "proved",
   "theorems": [
    "C104_constant",
    "C104_terminal",
    "C104_middle",
    "C104_table",
    "C104_search"
   ],
   "note": "In binary32."
  },
  {
   "property": "C105",
   "status": "proved",
   "theorems": [
    "C105_finite",
    "C105_nan"
   ],
   "note": "In binary32."
  },
  {
   "property": "C106",
   "status": "proved",
   "theorems": [
    "C106_finite",
    "C106_nan"
   ],
   "note": "In binary32."
  },
  {
   "property": "C107",
   "status": "proved",
   "theorems": [
    "C107_message",
    "C107_distinct"
   ],
   "note": ""
  },
  {
   "property": "C108",
   "status": "proved",
   "theorems": [
    "C108_finite",
    "C108_nan"
   ],
   "note": "In binary32."
  },
  {
   "property": "C109",
   "status": "proved",
   "theorems": [
    "C109_angle",
    "C109_same",
    "C109_lost",
    "C109_nan"
   ],
   "note": "In binary32."
  },
  {
   "property": "C11",
   "status": "proved",
   "theorems": [
    "C11_path_legal"
   ],
   "note": ""
  },
  {
   "property": "C110",
   "status": "proved",
   "theorems": [
    "C110_bound",
    "C110_range"
   ],
   "note": "In binary32."
  },
  {
   "property": "C111",
   "status": "proved",
   "theorems": [
    "C111_calibrate",
    "C111_bounded",
    "C111_twice"
   ],
   "note": "In binary32."
  },
  {
   "property": "C112",
   "status": "proved",
   "theorems": [
    "C112_rounds",
    "C112_moves",
    "C112_end"
   ],
   "note": "In exact real arithmetic. That the two compared paths are equal is C114."
  },
  {
   "property": "C113",
   "status": "proved",
   "theorems": [
    "C113_simulated",
    "C113_round"
   ],
   "note": "In binary32."
  },
  {
   "property": "C114",
   "status": "proved",
   "theorems": [
    "C114_first",
    "C114_only",
    "C114_settled",
    "C114_assertion"
   ],
   "note": "The assertion of the test in exact real arithmetic."
  },
  {
   "property": "C115",
   "status": "proved",
   "theorems": [
    "C115_rounds"
   ],
   "note": "In exact real arithmetic."
  },
  {
   "property": "C116",
   "status": "proved",
   "theorems": [
    "C116_followed",
    "C116_any",
    "C116_drive"
   ],
   "note": "C116_any in every arithmetic, the others in exact real arithmetic."
  },
  {
   "property": "C117",
   "status": "proved",
   "theorems": [
    "C117_followed",
    "C117_drive"
   ],
   "note": "C117_followed in every arithmetic, C117_drive in exact real arithmetic."
  },
  {
   "property": "C118",
   "status": "proved",
   "theorems": [
    "C118_bound",
    "C118_rounds",
    "C118_rests"
   ],
   "note": "In exact real arithmetic."
  },
  {
   "property": "C12",
   "status": "proved",
   "theorems": [
    "C12_path_optimal"
   ],
   "note": ""
  },
  {
   "property": "C13",
   "status": "proved",
   "theorems": [
    "C13_path_complete"
   ],
   "note": ""
  },
  {
   "property": "C14",
   "status": "partial",
   "theorems": [
    "C14_start_is_goal_refuted",
    "C14_start_is_goal_partial"
   ],
   "note": "The property is false: with the start as only reachable goal the result is None (refuted). The partial theorem gives a path when another goal is reachable."
  },
  {
   "property": "C15",
   "status": "proved",
   "theorems": [
    "C15_no_panic"
   ],
   "note": ""
  },
  {
   "property": "C16",
   "status": "proved",
   "theorems": [
    "C16_done_is_optimal"
   ],
   "note": ""
  },
  {
   "property": "C17",
   "status": "partial",
   "theorems": [
    "C17_done_when_known_refuted",
    "C17_done_when_known_partial"
   ],
   "note": "The property is false: an unknown wall beside a straight run, aliased by an in-between grid point, is also wanted (refuted). The partial theorem requires the in-between points to read as checked too."
  },
  {
   "property": "C18",
   "status": "partial",
   "theorems": [
    "C18_valid_callbacks_refuted",
    "C18_valid_callbacks_partial"
   ],
   "note": "The property is false for search (refuted with a callback that panics on rejected coordinates). It holds for shortest_path, and search only passes coordinates inside the doubled grid."
  },
  {
   "property": "C19",
   "status": "proved",
   "theorems": [
    "C19_nearest_first"
   ],
   "note": ""
  },
  {
   "property": "C20",
   "status": "proved",
   "theorems": [
    "C20_candidates"
   ],
   "note": ""
  },
  {
   "property": "C21",
   "status": "proved",
   "theorems": [
    "C21_err_iff",
    "C21_no_spurious_err"
   ],
   "note": ""
  },
  {
   "property": "C22",
   "status": "proved",
   "theorems": [
    "C22_next_coordinate"
   ],
   "note": ""
  },
  {
   "property": "C23",
   "status": "proved",
   "theorems": [
    "C23_exploration"
   ],
   "note": "The loop of tests/search.rs reduced to its discrete part: between a search and the next decision the walls of the cell ahead become known, and any other valid walls may (an arbitrary list per round). A candidate list whose walls all turn out closed (next_coordinate's error) counts as the unreachable outcome, as in the test."
  },
  {
   "property": "C24",
   "status": "proved",
   "theorems": [
    "C24_search_state"
   ],
   "note": ""
  },
  {
   "property": "C25",
   "status": "partial",
   "theorems": [
    "C25_refuted",
    "C25_search_moves_partial",
    "C25_standard_maze_partial"
   ],
   "note": "In exact real arithmetic. False for squares other than 90 mm with a non-zero front offset, because SlalomConfig::new divides the offset by 0.09 instead of the square width (witness: 180 mm, 10 mm). The partial theorems give the error for every width and offset, zero for Front and Back, and the full claim for 90 mm squares."
  },
  {
   "property": "C26",
   "status": "proved",
   "theorems": [
    "C26_node_new",
    "C26_node_ids"
   ],
   "note": ""
  },
  {
   "property": "C27",
   "status": "proved",
   "theorems": [
    "C27_successors"
   ],
   "note": ""
  },
  {
   "property": "C28",
   "status": "proved",
   "theorems": [
    "C28_sound",
    "C28_ends"
   ],
   "note": "Every supported width, also when the heap overflows; the callbacks is_goal and into_cost are total functions, is_wall answers on wall positions."
  },
  {
   "property": "C29",
   "status": "proved",
   "theorems": [
    "C29_optimal"
   ],
   "note": ""
  },
  {
   "property": "C30",
   "status": "partial",
   "theorems": [
    "C30_large_refuted",
    "C30_large_partial"
   ],
   "note": "False for W = 32: the full heap silently drops an entry and a dearer path is returned (for one order of equal costs), and a path of more than 1024 nodes panics. False for W = 16 as well: with moves that cost nothing a path of more than 1024 nodes panics. The partial theorem covers mazes of every width where all runs from the start have at most 16383 moves in all and either at most 1024 nodes or moves that are not too cheap; it applies to the 16 x 16 mazes of the repository (Example C30_example)."
  },
  {
   "property": "C31",
   "status": "proved",
   "theorems": [
    "C31_run_moves"
   ],
   "note": "In exact real arithmetic. "
  },
  {
   "property": "C32",
   "status": "proved",
   "theorems": [
    "C32_speed_change"
   ],
   "note": "In exact real arithmetic. "
  },
  {
   "property": "C33",
   "status": "partial",
   "theorems": [
    "C33_refuted",
    "C33_straight_partial",
    "C33_mirror"
   ],
   "note": "In exact real arithmetic. False as stated: if braking to v_end fits but braking to some speed above it does not (the distance of a speed change is not monotone), the planned position jumps. The partial theorem needs room for braking to every intermediate speed and, from rest, a distance not below what v_max / 2^25 as peak speed covers."
  },
  {
   "property": "C34",
   "status": "partial",
   "theorems": [
    "C34_refuted",
    "C34_feasible_partial"
   ],
   "note": "In exact real arithmetic. False: witness v_max 4, a_max 100, j_max 1, from 4 to 0 in 8.2. True when braking to every intermediate speed fits."
  },
  {
   "property": "C35",
   "status": "proved",
   "theorems": [
    "C35_terminal_velocity"
   ],
   "note": "In exact real arithmetic. "
  },
  {
   "property": "C36",
   "status": "proved",
   "theorems": [
    "C36_straight",
    "C36_spin",
    "C36_curve",
    "C36_stop"
   ],
   "note": "In exact real arithmetic. "
  },
  {
   "property": "C37",
   "status": "partial",
   "theorems": [
    "C37_refuted",
    "C37_finite_partial"
   ],
   "note": "False in binary32 with every math library: 0/0 makes the end time NaN and the iterator never ends. The partial theorem is in exact real arithmetic for moves that are not too short; C103 has the binary32 case for ordinary parameters."
  },
  {
   "property": "C38",
   "status": "proved",
   "theorems": [
    "C38_pose",
    "C38_norms",
    "C38_heading",
    "C38_compose",
    "C38_iterator"
   ],
   "note": "In exact real arithmetic. C38_iterator holds in every arithmetic and for every inner iterator."
  },
  {
   "property": "C39",
   "status": "proved",
   "theorems": [
    "C39_curve",
    "C39_table"
   ],
   "note": "In exact real arithmetic. Needs a turning angle not below what v_max / 2^25 as peak rate covers; C39_table shows this for all run slaloms."
  },
  {
   "property": "C40",
   "status": "proved",
   "theorems": [
    "C40_parameters",
    "C40_constant",
    "C40_terminal_velocity"
   ],
   "note": "In exact real arithmetic. "
  },
  {
   "property": "C41",
   "status": "partial",
   "theorems": [
    "C41_spin_partial",
    "C41_refuted"
   ],
   "note": "The partial theorem is in exact real arithmetic and needs an angle not below what v_max / 2^25 as peak rate covers. In binary32 spins by tiny angles never end (refuted with every math library); C103 has the binary32 case for ordinary angles."
  },
  {
   "property": "C42",
   "status": "proved",
   "theorems": [
    "C42_history",
    "C42_integral",
    "C42_reset"
   ],
   "note": "C42_history and C42_reset hold in every arithmetic including binary32; the closed form of the integral is in exact real arithmetic."
  },
  {
   "property": "C43",
   "status": "proved",
   "theorems": [
    "C43_normalize"
   ],
   "note": "In exact real arithmetic. "
  },
  {
   "property": "C44",
   "status": "proved",
   "theorems": [
    "C44_sinc"
   ],
   "note": "In exact real arithmetic. "
  },
  {
   "property": "C45",
   "status": "proved",
   "theorems": [
    "C45_navigate",
    "C45_errors_only",
    "C45_track_slow",
    "C45_track_fast",
    "C45_measured"
   ],
   "note": "In exact real arithmetic. Also covers the high-speed law."
  },
  {
   "property": "C46",
   "status": "proved",
   "theorems": [
    "C46_satisfied",
    "C46_projection",
    "C46_infeasible"
   ],
   "note": "In exact real arithmetic. The jerk part needs a non-zero input acceleration; see C70."
  },
  {
   "property": "C47",
   "status": "partial",
   "theorems": [
    "C47_corners_refuted",
    "C47_corners_partial"
   ],
   "note": "In exact real arithmetic. The property is false: the lower left corner of the cell is never among the considered pillars (refuted with a case where its avoidance condition is violated and the input passed on). The partial theorem says which corners are and are not considered, for every position."
  },
  {
   "property": "C48",
   "status": "proved",
   "theorems": [
    "C48_heading",
    "C48_speed",
    "C48_acceleration",
    "C48_decay"
   ],
   "note": "In exact real arithmetic. "
  },
  {
   "property": "C49",
   "status": "proved",
   "theorems": [
    "C49_bayes",
    "C49_others",
    "C49_order",
    "C49_answer",
    "C49_start"
   ],
   "note": "In exact real arithmetic. Order independence is for histories in which every reading of the wall is answered (the wall is not latched on the way)."
  },
  {
   "property": "C50",
   "status": "proved",
   "theorems": [
    "C50_latched",
    "C50_unchanged",
    "C50_threshold",
    "C50_with_walls"
   ],
   "note": "Latching holds in every arithmetic; the numeric threshold in exact reals; with_walls in exact reals and binary32."
  },
  {
   "property": "C51",
   "status": "proved",
   "theorems": [
    "C51_ray"
   ],
   "note": "In exact real arithmetic. "
  },
  {
   "property": "C52",
   "status": "partial",
   "theorems": [
    "C52_outside_refuted",
    "C52_outside_partial"
   ],
   "note": "In exact real arithmetic. False as stated: the column is truncated to u8 and shifted, so cell 128 is taken for cell 0. Holds below column and row 128."
  },
  {
   "property": "C53",
   "status": "proved",
   "theorems": [
    "C53_bounded",
    "C53_apply"
   ],
   "note": "In exact real arithmetic. "
  },
  {
   "property": "C54",
   "status": "proved",
   "theorems": [
    "C54_motion"
   ],
   "note": "In exact real arithmetic. "
  },
  {
   "property": "C55",
   "status": "partial",
   "theorems": [
    "C55_voltage_refuted",
    "C55_voltage_partial"
   ],
   "note": "In binary32. False as stated: a NaN voltage passes both comparisons and is stored. Holds for every other value."
  },
  {
   "property": "C56",
   "status": "proved",
   "theorems": [
    "C56_encoder_history"
   ],
   "note": "In exact real arithmetic. "
  },
  {
   "property": "C57",
   "status": "partial",
   "theorems": [
    "C57_encoder_total_refuted",
    "C57_encoder_total_partial"
   ],
   "note": "The property is false: a decrease by exactly 32768 panics (negation overflow). The partial theorem shows this is the only panicking difference."
  },
  {
   "property": "C58",
   "status": "proved",
   "theorems": [
    "C58_motor"
   ],
   "note": "In exact real arithmetic. "
  },
  {
   "property": "C59",
   "status": "partial",
   "theorems": [
    "C59_zero_voltage_refuted",
    "C59_zero_voltage_partial"
   ],
   "note": "False in binary32: 0/0 is NaN, cast to duty 0, which is full drive. The partial theorem covers every battery reading that is neither zero nor NaN."
  },
  {
   "property": "C60",
   "status": "proved",
   "theorems": [
    "C60_voltmeter"
   ],
   "note": "In exact real arithmetic. "
  },
  {
   "property": "C61",
   "status": "proved",
   "theorems": [
    "C61_selected",
    "C61_deselects"
   ],
   "note": ""
  },
  {
   "property": "C62",
   "status": "proved",
   "theorems": [
    "C62_decode"
   ],
   "note": ""
  },
  {
   "property": "C63",
   "status": "proved",
   "theorems": [
    "C63_calibrate",
    "C63_all_or_nothing"
   ],
   "note": "In exact real arithmetic. "
  },
  {
   "property": "C64",
   "status": "proved",
   "theorems": [
    "C64_protocol",
    "C64_at_most_one"
   ],
   "note": ""
  },
  {
   "property": "C65",
   "status": "partial",
   "theorems": [
    "C65_reinit_refuted",
    "C65_reinit_partial"
   ],
   "note": "The property is false: init keeps addressing the device at the previously assigned address, which a freshly reset device does not answer (refuted). The partial theorem covers init while the driver holds the default address."
  },
  {
   "property": "C66",
   "status": "proved",
   "theorems": [
    "C66_motor_f32"
   ],
   "note": "Binary32 semantics (Flocq)."
  },
  {
   "property": "C67",
   "status": "proved",
   "theorems": [
    "C67_imu_no_panic"
   ],
   "note": ""
  },
  {
   "property": "C68",
   "status": "proved",
   "theorems": [
    "C68_supervise"
   ],
   "note": "In exact real arithmetic. "
  },
  {
   "property": "C69",
   "status": "proved",
   "theorems": [
    "C69_barrier"
   ],
   "note": "In exact real arithmetic. "
  },
  {
   "property": "C70",
   "status": "partial",
   "theorems": [
    "C70_jerk_finite_refuted",
    "C70_jerk_finite_partial"
   ],
   "note": "False in binary32 for every mathematical library: zero acceleration input with a violated constraint gives a NaN jerk (division by the zero norm). Proved in binary32: everything returned is finite when all arguments are at most 65536 in size, a component of the input is at least 2^-20, a coefficient of the constraint at least 2^-30, and sine, cosine and atan2 have their usual range. Open: smaller or larger arguments."
  },
  {
   "property": "C71",
   "status": "proved",
   "theorems": [
    "C71_arc",
    "C71_straight",
    "C71_slip"
   ],
   "note": "In exact real arithmetic. "
  },
  {
   "property": "C72",
   "status": "proved",
   "theorems": [
    "C72_optimal"
   ],
   "note": "In exact real arithmetic. "
  },
  {
   "property": "C73",
   "status": "proved",
   "theorems": [
    "C73_energy"
   ],
   "note": "In exact real arithmetic. "
  },
  {
   "property": "C74",
   "status": "proved",
   "theorems": [
    "C74_slalom",
    "C74_table"
   ],
   "note": "In exact real arithmetic. "
  },
  {
   "property": "C75",
   "status": "proved",
   "theorems": [
    "C75_quadrature"
   ],
   "note": "In exact real arithmetic. "
  },
  {
   "property": "C76",
   "status": "partial",
   "theorems": [
    "C76_curve_end_refuted",
    "C76_curve_end_partial"
   ],
   "note": "In exact real arithmetic. False for FastRun45, whose curve ends 0.3 per cent of a square width beyond the tabulated point for every speed; proved for all other kinds."
  },
  {
   "property": "C77",
   "status": "proved",
   "theorems": [
    "C77_slalom_tv"
   ],
   "note": "Holds in every arithmetic."
  },
  {
   "property": "C78",
   "status": "proved",
   "theorems": [
    "C78_search_pose",
    "C78_node_pose"
   ],
   "note": "In exact real arithmetic. "
  },
  {
   "property": "C79",
   "status": "proved",
   "theorems": [
    "C79_complete"
   ],
   "note": "In exact real arithmetic. "
  },
  {
   "property": "C80",
   "status": "proved",
   "theorems": [
    "C80_stored"
   ],
   "note": "In binary32, for every libm."
  },
  {
   "property": "C81",
   "status": "partial",
   "theorems": [
    "C81_panic_refuted",
    "C81_panic_partial",
    "C81_panic_iff",
    "C81_ordinary_partial"
   ],
   "note": "In binary32. False as stated: with mean 0.05 and stddev 2^-80 both exponents overflow and their difference is NaN. C81_panic_iff says exactly when the call panics: an exponent is NaN or both are -infinity, for a wall not yet settled. C81_ordinary_partial: no panic for any position, a heading whose sine and cosine agree with its quadrant, mean up to 1024 m, standard deviation from 2^-40 m. The exponential is assumed at least 1 on non-negative arguments and usual on NaN and infinity."
  },
  {
   "property": "C82",
   "status": "proved",
   "theorems": [
    "C82_heading"
   ],
   "note": "Holds in every arithmetic."
  },
  {
   "property": "C83",
   "status": "proved",
   "theorems": [
    "C83_lag"
   ],
   "note": "In exact real arithmetic. "
  },
  {
   "property": "C84",
   "status": "proved",
   "theorems": [
    "C84_truth",
    "C84_start",
    "C84_decides"
   ],
   "note": "In exact real arithmetic. "
  },
  {
   "property": "C85",
   "status": "proved",
   "theorems": [
    "C85_decay",
    "C85_linear",
    "C85_alpha"
   ],
   "note": "In exact real arithmetic and continuous time; the hypothesis that the robot carries out the commands is explicit (obeys, rolls)."
  },
  {
   "property": "C86",
   "status": "proved",
   "theorems": [
    "C86_servo"
   ],
   "note": "In exact real arithmetic. "
  },
  {
   "property": "C87",
   "status": "partial",
   "theorems": [
    "C87_refuted",
    "C87_clock",
    "C87_ends_partial"
   ],
   "note": "False for end times of very many periods, where the addition of the period is rounded away; proved for end times below 2^22 periods (70 minutes at 1 ms) and periods up to 2^100 s."
  },
  {
   "property": "C88",
   "status": "proved",
   "theorems": [
    "C88_speed",
    "C88_straight"
   ],
   "note": "In exact real arithmetic. "
  },
  {
   "property": "C89",
   "status": "proved",
   "theorems": [
    "C89_search"
   ],
   "note": "In exact real arithmetic, for the width 90 mm of the tests."
  },
  {
   "property": "C90",
   "status": "proved",
   "theorems": [
    "C90_run"
   ],
   "note": "In exact real arithmetic. The room for the moves (route_room) is a hypothesis about the chosen limits."
  },
  {
   "property": "C91",
   "status": "proved",
   "theorems": [
    "C91_clear"
   ],
   "note": "In exact real arithmetic, for the width 90 mm of the tests. Walls are lines without thickness."
  },
  {
   "property": "C92",
   "status": "proved",
   "theorems": [
    "C92_exploration"
   ],
   "note": "In exact real arithmetic, for the width 90 mm of the tests. The planned targets, not the mouse, are meant."
  },
  {
   "property": "C93",
   "status": "proved",
   "theorems": [
    "C93_run"
   ],
   "note": "In exact real arithmetic. The room for the moves (route_room) is a hypothesis about the chosen limits. Walls are lines without thickness."
  },
  {
   "property": "C94",
   "status": "proved",
   "theorems": [
    "C94_after_search"
   ],
   "note": "In exact real arithmetic. The planned targets, not the mouse, are meant; the discrete exploration of C23."
  },
  {
   "property": "C95",
   "status": "proved",
   "theorems": [
    "C95_run_complete"
   ],
   "note": "Widths up to 8, and larger mazes in which the runs from the start have at most 16383 moves and the paths stay below 1024 nodes, because the heap and the path can overflow in others (C30). A 16 x 16 maze of the repository is an example."
  },
  {
   "property": "C96",
   "status": "proved",
   "theorems": [
    "C96_planners_agree"
   ],
   "note": "Widths up to 8, and larger mazes in which the runs from the start have at most 16383 moves and the paths stay below 1024 nodes, because the heap and the path can overflow in others (C30). A 16 x 16 maze of the repository is an example."
  },
  {
   "property": "C97",
   "status": "proved",
   "theorems": [
    "C97_solved"
   ],
   "note": "Widths up to 8, and larger mazes in which the runs from the start have at most 16383 moves and the paths stay below 1024 nodes, because the heap and the path can overflow in others (C30). A 16 x 16 maze of the repository is an example. The discrete exploration of C23."
  },
  {
   "property": "C98",
   "status": "proved",
   "theorems": [
    "C98_brisk"
   ],
   "note": "In exact real arithmetic. The speed of tests/run.rs itself (0.5) does not meet the condition."
  },
  {
   "property": "C99",
   "status": "proved",
   "theorems": [
    "C99_mouse"
   ],
   "note": "In exact real arithmetic. Widths up to 8, and larger mazes in which the runs from the start have at most 16383 moves and the paths stay below 1024 nodes, because the heap and the path can overflow in others (C30). A 16 x 16 maze of the repository is an example. The mouse is taken to follow its targets; the targets are planned, the tracking is not part of this."
  }
 ]
}