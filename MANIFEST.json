{
 "claims": [
  {
   "property": "C01",
   "status": "proved",
   "theorems": [
    "C01_partition_of_unity",
    "C01_local_support",
    "C01_zero_outside",
    "C01_overclamped_refuted"
   ],
   "note": "over exact reals; the left end belongs to the domain when it is a knot of multiplicity degree+1 (a higher multiplicity is shown to break it)"
  },
  {
   "property": "C02",
   "status": "proved",
   "theorems": [
    "C02_convex_hull"
   ],
   "note": ""
  },
  {
   "property": "C03",
   "status": "proved",
   "theorems": [
    "C03_add",
    "C03_sub",
    "C03_neg",
    "C03_scal",
    "C03_add_number",
    "C03_evalspline"
   ],
   "note": ""
  },
  {
   "property": "C04",
   "status": "proved",
   "theorems": [
    "C04_derivative",
    "C04_continuous",
    "C04_shape",
    "C04_end_values"
   ],
   "note": "all derivative orders; also at knots of low enough multiplicity"
  },
  {
   "property": "C05",
   "status": "proved",
   "theorems": [
    "C05_derivative_of_running_integral",
    "C05_antiderivative",
    "C05_start_end",
    "C05_definite_integral",
    "C05_definite_additive"
   ],
   "note": ""
  },
  {
   "property": "C06",
   "status": "proved",
   "theorems": [
    "C06_knot_insertion",
    "C06_crop",
    "C06_crop_start"
   ],
   "note": "any list of inserted knots; cropping included"
  },
  {
   "property": "C07",
   "status": "proved",
   "theorems": [
    "C07_scale",
    "C07_scale_compose"
   ],
   "note": ""
  },
  {
   "property": "C08",
   "status": "proved",
   "theorems": [
    "C08_sum_knots",
    "C08_product_knots",
    "C08_sum_multiplicity",
    "C08_product_multiplicity",
    "C08_clamped",
    "C08_power_knots",
    "C08_power_knots_refuted"
   ],
   "note": "basis**0 loses inner knots (refuted)"
  },
  {
   "property": "C09",
   "status": "proved",
   "theorems": [
    "C09_power",
    "C09_power_degree",
    "C09_power_zero_refuted"
   ],
   "note": "s**0 refuted"
  },
  {
   "property": "C10",
   "status": "proved",
   "theorems": [
    "C10_equal_hash",
    "C10_eq_is_equality",
    "C10_greville",
    "C10_greville_identity"
   ],
   "note": ""
  },
  {
   "property": "C11",
   "status": "proved",
   "theorems": [
    "C11_unique",
    "C11_stem",
    "C11_returns_iff",
    "C11_first_free",
    "C11_endless_refuted",
    "C11_father_keeps_all"
   ],
   "note": "ASCII labels; exact characterisation of the requests for which the call returns; endless recursion for labels such as veh_ recorded as refutation"
  },
  {
   "property": "C12",
   "status": "proved",
   "theorems": [
    "C12_skip",
    "C12_no_skip",
    "C12_zero_refuted",
    "C12_dual_basis_refuted"
   ],
   "note": "skip=[0,0] drops every row (refuted), any other in-range pair keeps exactly the requested rows"
  },
  {
   "property": "C13",
   "status": "proved",
   "theorems": [
    "C13_delivered",
    "C13_twice_refused",
    "C13_last_value"
   ],
   "note": ""
  },
  {
   "property": "C14",
   "status": "proved",
   "theorems": [
    "C14_accepted_iff",
    "C14_refusal"
   ],
   "note": ""
  },
  {
   "property": "C15",
   "status": "proved",
   "theorems": [
    "C15_path",
    "C15_legal"
   ],
   "note": "get_path including the snapping of start and goal"
  },
  {
   "property": "C16",
   "status": "proved",
   "theorems": [
    "C16_terminates"
   ],
   "note": "fuel n_cells[0]*n_cells[1]+1 is never exhausted; the only errors are the two RuntimeErrors of the planner"
  },
  {
   "property": "C17",
   "status": "proved",
   "theorems": [
    "C17_no_neighbors",
    "C17_exhausted",
    "C17_unreachable_raises",
    "C17_false_alarm_refuted"
   ],
   "note": "completeness of the exhaustive search, plus the false alarm when the goal is the last cell visited"
  },
  {
   "property": "C18",
   "status": "proved",
   "theorems": [
    "C18_legal",
    "C18_symmetric",
    "C18_down_left",
    "C18_corner_cut_refuted",
    "C18_refused_refuted"
   ],
   "note": "exact characterisation for cell height 1 and for any height of the down-left move; two refutations for other heights"
  },
  {
   "property": "C19",
   "status": "proved",
   "theorems": [
    "C19_inside",
    "C19_free",
    "C19_nearest",
    "C19_blocked",
    "C19_closest_refuted"
   ],
   "note": "the comment 'select closest point' is refuted"
  },
  {
   "property": "C20",
   "status": "proved",
   "theorems": [
    "C20_admissible",
    "C20_quality",
    "C20_sqrt2",
    "C20_optimal_refuted"
   ],
   "note": "suboptimality bound sqrt(2) proved, optimality refuted by an explicit grid; optimal when no diagonal move is on offer"
  },
  {
   "property": "C21",
   "status": "proved",
   "theorems": [
    "C21_blocked_iff",
    "C21_sound",
    "C21_wide_detected",
    "C21_circle_box",
    "C21_rect_box",
    "C21_thin_refuted",
    "C21_other_shape_refuted"
   ],
   "note": "exact characterisation of the blocked set; thin obstacles are missed; unsupported shapes crash or reuse stale vertices"
  },
  {
   "property": "C22",
   "status": "proved",
   "theorems": [
    "C22_overlap",
    "C22_raises",
    "C22_symmetric",
    "C22_center"
   ],
   "note": "upright rectangles; others raise"
  },
  {
   "property": "C23",
   "status": "proved",
   "theorems": [
    "C23_point",
    "C23_none",
    "C23_segments_sound",
    "C23_segments_crossing",
    "C23_touching_refuted"
   ],
   "note": "touching end points can be missed (refuted)"
  },
  {
   "property": "C24",
   "status": "proved",
   "theorems": [
    "C24_sound",
    "C24_vertex",
    "C24_edge",
    "C24_upright",
    "C24_corner_refuted",
    "C24_descending_refuted"
   ],
   "note": "sound up to the code's own tolerance; missed corners and descending edges recorded as refutations"
  },
  {
   "property": "C25",
   "status": "proved",
   "theorems": [
    "C25_collision_free",
    "C25_no_common_interior",
    "C25_vehicles_apart",
    "C25_collision_free_3d"
   ],
   "note": "at one instant, as an implication from the emitted expressions; hulls of checkpoints inflated by their radii"
  },
  {
   "property": "C26",
   "status": "proved",
   "theorems": [
    "C26_grid",
    "C26_count",
    "C26_clock",
    "C26_drift",
    "C26_clock_refuted",
    "C26_total",
    "C26_run",
    "C26_last_sample_refuted",
    "C26_coarse_stop_refuted"
   ],
   "note": "drift off the sample grid, single-sample stop and coarse sample time recorded as refuted variants"
  },
  {
   "property": "C27",
   "status": "proved",
   "theorems": [
    "C27_exact",
    "C27_nearest_refuted"
   ],
   "note": "nearest-sample reading refuted"
  },
  {
   "property": "C28",
   "status": "proved",
   "theorems": [
    "C28_python3",
    "C28_python2",
    "C28_positive",
    "C28_parameter"
   ],
   "note": "both Python divisions"
  },
  {
   "property": "C29",
   "status": "proved",
   "theorems": [
    "C29_once",
    "C29_exact",
    "C29_never_more",
    "C29_consistent",
    "C29_lost_refuted",
    "C29_rounding_refuted"
   ],
   "note": "lost shifts and disagreeing roundings refuted"
  },
  {
   "property": "C30",
   "status": "proved",
   "theorems": [
    "C30_arrival",
    "C30_large_tolerance",
    "C30_arrival_refuted",
    "C30_quadrotor3d",
    "C30_quadrotor3d_refuted",
    "C30_trailer"
   ],
   "note": "tolerance below one; tolerance of one or more and one-sided thrust test of Quadrotor3D refuted"
  },
  {
   "property": "C31",
   "status": "proved",
   "theorems": [
    "C31_aligned",
    "C31_columns",
    "C31_time_log",
    "C31_stored",
    "C31_misaligned_refuted",
    "C31_enough_columns",
    "C31_axis_end"
   ],
   "note": "misalignment off the sample grid refuted; odeint is an arbitrary function"
  },
  {
   "property": "C32",
   "status": "proved",
   "theorems": [
    "C32_circular",
    "C32_circular_symmetric",
    "C32_full",
    "C32_full_once",
    "C32_small_refuted",
    "C32_strings",
    "C32_antisymmetric",
    "C32_difference",
    "C32_orientation",
    "C32_configuration",
    "C32_configuration_value"
   ],
   "note": "two or fewer vehicles in a circular fleet recorded as refuted corner"
  },
  {
   "property": "C33",
   "status": "proved",
   "theorems": [
    "C33_couples_cover",
    "C33_couples_only",
    "C33_couples_once",
    "C33_circular_count",
    "C33_full_count",
    "C33_connected",
    "C33_formation",
    "C33_centre",
    "C33_keys_refuted",
    "C33_rendezvous",
    "C33_rendezvous_stop"
   ],
   "note": "configuration keys other than 0,1,.. refuted"
  },
  {
   "property": "C34",
   "status": "proved",
   "theorems": [
    "C34_couples",
    "C34_connected",
    "C34_count",
    "C34_formation",
    "C34_two_refuted",
    "C34_one_refuted"
   ],
   "note": "one and two vehicles refuted"
  },
  {
   "property": "C35",
   "status": "proved",
   "theorems": [
    "C35_local",
    "C35_remote",
    "C35_sorted",
    "C35_neighbours",
    "C35_symmetric",
    "C35_neighbours_once",
    "C35_expected_is_sent",
    "C35_ji_keys",
    "C35_same_layout",
    "C35_layout_refuted",
    "C35_no_self",
    "C35_self_refuted",
    "C35_constraints",
    "C35_order",
    "C35_ring_order"
   ],
   "note": "equal layout of copy and original refuted in general"
  },
  {
   "property": "C36",
   "status": "proved",
   "theorems": [
    "C36_feasible",
    "C36_optimal",
    "C36_unique",
    "C36_function",
    "C36_regular",
    "C36_singular_refuted",
    "C36_multiplier"
   ],
   "note": "the linear solver is a relation; duplicated rows make the system singular (refuted)"
  },
  {
   "property": "C37",
   "status": "proved",
   "theorems": [
    "C37_exchange",
    "C37_every_update",
    "C37_fresh",
    "C37_own_kept",
    "C37_shift",
    "C37_shift_refuted",
    "C37_start_refuted"
   ],
   "note": "unequal shift times and start values refuted"
  },
  {
   "property": "C38",
   "status": "proved",
   "theorems": [
    "C38_root",
    "C38_zero",
    "C38_combined",
    "C38_dd_zero",
    "C38_dd_refuted"
   ],
   "note": "dual decomposition reports another number (refuted)"
  },
  {
   "property": "C39",
   "status": "proved",
   "theorems": [
    "C39_alpha",
    "C39_growth",
    "C39_equation",
    "C39_growth_total",
    "C39_weight",
    "C39_state",
    "C39_first",
    "C39_reset",
    "C39_no_endless_reset",
    "C39_reset_refuted"
   ],
   "note": "zero remembered residual refuted"
  },
  {
   "property": "C40",
   "status": "proved",
   "theorems": [
    "C40_solve",
    "C40_solve_terminates",
    "C40_histories",
    "C40_stop_limit",
    "C40_stop_arrival",
    "C40_stop_refuted",
    "C40_residual_plot",
    "C40_residual_plot_refuted"
   ],
   "note": "arrival test under an iteration limit and residual plot refuted"
  },
  {
   "property": "C41",
   "status": "proved",
   "theorems": [
    "C41_meaning",
    "C41_chain",
    "C41_end",
    "C41_continued",
    "C41_words",
    "C41_rapid",
    "C41_center",
    "C41_center_refuted",
    "C41_feed",
    "C41_feed_refuted",
    "C41_comment_refuted",
    "C41_read",
    "C41_blank",
    "C41_subfile_refuted",
    "C41_connections",
    "C41_connections_refuted"
   ],
   "note": "omitted arc offsets, F words, comments of several words, subfile order and connections refuted"
  },
  {
   "property": "C42",
   "status": "proved",
   "theorems": [
    "C42_lossless",
    "C42_pieces",
    "C42_proper",
    "C42_last"
   ],
   "note": ""
  },
  {
   "property": "C43",
   "status": "proved",
   "theorems": [
    "C43_first",
    "C43_last",
    "C43_clockwise",
    "C43_counter_clockwise",
    "C43_height_refuted",
    "C43_full_circle_refuted"
   ],
   "note": "XY plane; G02 above height 0 without K and full circles refuted"
  },
  {
   "property": "C44",
   "status": "proved",
   "theorems": [
    "C44_room",
    "C44_tight",
    "C44_membership",
    "C44_chain",
    "C44_parts",
    "C44_parts_refuted"
   ],
   "note": "level moves for the three-part split; height changes refuted"
  },
  {
   "property": "C45",
   "status": "proved",
   "theorems": [
    "C45_numbers",
    "C45_numbers_refuted",
    "C45_window",
    "C45_advance",
    "C45_progress",
    "C45_too_many",
    "C45_stuck_refuted",
    "C45_stop_refuted",
    "C45_renumbered_refuted"
   ],
   "note": "stuck window, early stop and repeated numbers refuted"
  },
  {
   "property": "C46",
   "status": "proved",
   "theorems": [
    "C46_length",
    "C46_sum",
    "C46_symmetric",
    "C46_values",
    "C46_active",
    "C46_short",
    "C46_rest",
    "C46_few_refuted",
    "C46_integral_refuted"
   ],
   "note": "at least six coefficients; zero net acceleration of the jerk profile refuted"
  },
  {
   "property": "C47",
   "status": "proved",
   "theorems": [
    "C47_smooth",
    "C47_gcode",
    "C47_constraint",
    "C47_start",
    "C47_end",
    "C47_total",
    "C47_within",
    "C47_zero_times_refuted",
    "C47_top_derivative_refuted"
   ],
   "note": "strengthened to differentiability of the whole trajectory; zero motion times and the top derivative refuted"
  },
  {
   "property": "C48",
   "status": "proved",
   "theorems": [
    "C48_prediction",
    "C48_value_now",
    "C48_velocity",
    "C48_simulation",
    "C48_simulation_refuted",
    "C48_segments_uniform",
    "C48_first_segment",
    "C48_joints",
    "C48_segments_refuted"
   ],
   "note": "several segments with acceleration and scheduled jumps refuted"
  },
  {
   "property": "C49",
   "status": "proved",
   "theorems": [
    "C49_speed",
    "C49_reflection",
    "C49_runs",
    "C49_runs_refuted",
    "C49_untouched",
    "C49_room_circle",
    "C49_room_polygon",
    "C49_straight",
    "C49_right_wall",
    "C49_left_wall",
    "C49_upper_wall",
    "C49_lower_wall",
    "C49_returns",
    "C49_inward_refuted",
    "C49_corner_refuted",
    "C49_deep_refuted"
   ],
   "note": "inward direction only next to one wall and within 0.15; other cases refuted"
  },
  {
   "property": "C50",
   "status": "proved",
   "theorems": [
    "C50_all_times",
    "C50_norm_inf",
    "C50_norm_2",
    "C50_unknown_limit",
    "C50_common_bound",
    "C50_1d",
    "C50_3d_norm_inf",
    "C50_3d_norm_2",
    "C50_orient_norm_inf",
    "C50_orient_norm_2",
    "C50_orient_rate",
    "C50_tool_axes",
    "C50_tool_machining",
    "C50_tool_z_refuted",
    "C50_tool_common_bound"
   ],
   "note": "all holonomic vehicles and the tool; z velocity in machining mode refuted"
  },
  {
   "property": "C51",
   "status": "proved",
   "theorems": [
    "C51_dubins_trajectory",
    "C51_dubins_ode",
    "C51_same_position",
    "C51_dubins_limits",
    "C51_exact_substitution",
    "C51_dubins_acceleration",
    "C51_dubins_acceleration_refuted",
    "C51_bicycle_ode",
    "C51_steering_rate",
    "C51_bicycle_limits",
    "C51_braking_refuted",
    "C51_steering_at_start",
    "C51_no_correction",
    "C51_correction_refuted"
   ],
   "note": "bicycle and AGV for positive speed; acceleration limits and standstill correction refuted"
  },
  {
   "property": "C52",
   "status": "proved",
   "theorems": [
    "C52_quadrotor_ode",
    "C52_quadrotor_limits",
    "C52_quadrotor3d_ode",
    "C52_quadrotor3d_limits",
    "C52_simple_ode",
    "C52_simple_limits",
    "C52_simple_rate_refuted",
    "C52_simple_angle_refuted"
   ],
   "note": "quadrotors; roll-rate limit and pitch limit of SimpleQuadrotor3D refuted as exact limits"
  },
  {
   "property": "C53",
   "status": "proved",
   "theorems": [
    "C53_hitched",
    "C53_stays_hitched",
    "C53_pull",
    "C53_state_ode",
    "C53_angle_same_side",
    "C53_angle_refuted",
    "C53_angle_strict_refuted",
    "C53_start_refuted"
   ],
   "note": "angle limit and initial state refuted"
  },
  {
   "property": "C54",
   "status": "proved",
   "theorems": [
    "C54_constrained_center",
    "C54_logged_center",
    "C54_coincide"
   ],
   "note": ""
  },
  {
   "property": "C55",
   "status": "proved",
   "theorems": [
    "C55_parameters",
    "C55_position",
    "C55_row_parameter_refuted",
    "C55_variables",
    "C55_initialised",
    "C55_read_back",
    "C55_round_trip",
    "C55_columns",
    "C55_scalar_variable_refuted",
    "C55_shift",
    "C55_shift_position",
    "C55_position_iff",
    "C55_two_columns_refuted",
    "C55_shared_name_refuted"
   ],
   "note": "row parameters, scalar variables, several columns and equal names refuted"
  },
  {
   "property": "C56",
   "status": "proved",
   "theorems": [
    "C56_frames",
    "C56_last",
    "C56_default",
    "C56_default_last_refuted",
    "C56_more_frames_refuted",
    "C56_defined",
    "C56_single_frame_refuted",
    "C56_empty",
    "C56_tikz_last_refuted",
    "C56_colour"
   ],
   "note": "last sample and frame number refuted for the default and tikz movies"
  },
  {
   "property": "C57",
   "status": "proved",
   "theorems": [
    "C57_general",
    "C57_recovers",
    "C57_collinear",
    "C57_inline",
    "C57_corner",
    "C57_corner_refuted",
    "C57_horizontal_first",
    "C57_horizontal_second",
    "C57_horizontal_refuted",
    "C57_vertical",
    "C57_vertical_refuted"
   ],
   "note": "axis-parallel chords refuted"
  },
  {
   "property": "C58",
   "status": "proved",
   "theorems": [
    "C58_window",
    "C58_count",
    "C58_chain",
    "C58_start",
    "C58_end",
    "C58_switch",
    "C58_stay",
    "C58_stop"
   ],
   "note": ""
  },
  {
   "property": "C59",
   "status": "proved",
   "theorems": [
    "C59_border",
    "C59_room",
    "C59_moved",
    "C59_moved_start",
    "C59_moved_size",
    "C59_moved_refuted",
    "C59_base_refuted",
    "C59_scaled",
    "C59_scaled_ends",
    "C59_scaled_stuck",
    "C59_scaled_refuted"
   ],
   "note": "lower side, goal frames and base frames leaving the room refuted"
  },
  {
   "property": "C60",
   "status": "proved",
   "theorems": [
    "C60_binding",
    "C60_underscore_refuted"
   ],
   "note": "holds for labels without underscore; refuted with one"
  },
  {
   "property": "C61",
   "status": "proved",
   "theorems": [
    "C61_constraints_kept",
    "C61_problem_complete",
    "C61_lost_refuted",
    "C61_count_after_reset_refuted"
   ],
   "note": ""
  },
  {
   "property": "C62",
   "status": "proved",
   "theorems": [
    "C62_shutdown",
    "C62_python3_refuted"
   ],
   "note": "Python 2 semantics of exec; Python 3 refuted"
  },
  {
   "property": "C63",
   "status": "proved",
   "theorems": [
    "C63_rectangle",
    "C63_regular"
   ],
   "note": "np.linalg.solve of a 2x2 system is modelled by Cramer's rule"
  },
  {
   "property": "C64",
   "status": "proved",
   "theorems": [
    "C64_rectangle",
    "C64_sides",
    "C64_clockwise",
    "C64_counterclockwise_refuted"
   ],
   "note": "counter-clockwise polygons refuted"
  },
  {
   "property": "C65",
   "status": "proved",
   "theorems": [
    "C65_length",
    "C65_zero",
    "C65_symmetric",
    "C65_triangle",
    "C65_line",
    "C65_rectangle",
    "C65_repeat_refuted"
   ],
   "note": "repeatability of distance_to_rectangle refuted"
  },
  {
   "property": "C66",
   "status": "proved",
   "theorems": [
    "C66_static",
    "C66_moving_sound",
    "C66_moving_dwell",
    "C66_crossing_refuted"
   ],
   "note": "fast crossings refuted"
  },
  {
   "property": "C67",
   "status": "proved",
   "theorems": [
    "C67_discs",
    "C67_symmetric",
    "C67_circle_inside",
    "C67_polygon_inside"
   ],
   "note": ""
  },
  {
   "property": "C68",
   "status": "proved",
   "theorems": [
    "C68_rectangular_room",
    "C68_polygonal_room",
    "C68_room_3d",
    "C68_sphere_refuted"
   ],
   "note": "3D room constraint without radius refuted"
  },
  {
   "property": "C69",
   "status": "proved",
   "theorems": [
    "C69_turns",
    "C69_rigid"
   ],
   "note": ""
  },
  {
   "property": "C70",
   "status": "proved",
   "theorems": [
    "C70_column",
    "C70_in_range",
    "C70_truncated_refuted"
   ],
   "note": ""
  },
  {
   "property": "C71",
   "status": "proved",
   "theorems": [
    "C71_coupling"
   ],
   "note": ""
  },
  {
   "property": "C72",
   "status": "proved",
   "theorems": [
    "C72_stationary_optimal"
   ],
   "note": "convex vehicle problems; update at a knot"
  },
  {
   "property": "C73",
   "status": "proved",
   "theorems": [
    "C73_convert",
    "C73_offset_refuted",
    "C73_center_refuted"
   ],
   "note": "omitted coordinates and offsets refuted"
  },
  {
   "property": "C74",
   "status": "proved",
   "theorems": [
    "C74_region",
    "C74_parts",
    "C74_full_circle_refuted",
    "C74_halves_refuted"
   ],
   "note": "arcs of less than a turn including the tolerance; full circles refuted"
  },
  {
   "property": "C75",
   "status": "proved",
   "theorems": [
    "C75_diagonal",
    "C75_square",
    "C75_axis",
    "C75_margin_refuted",
    "C75_ring"
   ],
   "note": "margin ignored for axis-parallel rooms (refuted)"
  },
  {
   "property": "C76",
   "status": "proved",
   "theorems": [
    "C76_profile",
    "C76_distance_refuted"
   ],
   "note": "squared distance for straight moves refuted"
  },
  {
   "property": "C77",
   "status": "proved",
   "theorems": [
    "C77_quadrotor",
    "C77_quadrotor3d",
    "C77_simple",
    "C77_holonomic",
    "C77_orient",
    "C77_dubins",
    "C77_dubins_any_heading",
    "C77_bicycle",
    "C77_bicycle_slow",
    "C77_bicycle_refuted",
    "C77_trailer"
   ],
   "note": "slow bicycle start refuted"
  },
  {
   "property": "C78",
   "status": "proved",
   "theorems": [
    "C78_quadrotor",
    "C78_quadrotor3d",
    "C78_quadrotor3d_refuted",
    "C78_simple",
    "C78_holonomic",
    "C78_orient",
    "C78_dubins",
    "C78_bicycle",
    "C78_bicycle_rate",
    "C78_bicycle_refuted"
   ],
   "note": "Quadrotor3D and Bicycle refuted"
  },
  {
   "property": "C79",
   "status": "proved",
   "theorems": [
    "C79_slanted",
    "C79_aligned",
    "C79_arc",
    "C79_height",
    "C79_level_refuted"
   ],
   "note": "level segments leave the height free (refuted)"
  },
  {
   "property": "C80",
   "status": "proved",
   "theorems": [
    "C80_flow",
    "C80_sample",
    "C80_compose",
    "C80_determined",
    "C80_log",
    "C80_jumps",
    "C80_jump_times",
    "C80_value_at_zero",
    "C80_no_value_at_zero",
    "C80_value_at_zero_refuted",
    "C80_measured_state",
    "C80_measured_log",
    "C80_measured_log_refuted",
    "C80_orientation"
   ],
   "note": "odeint replaced by the exact solution (C80_flow)"
  },
  {
   "property": "C81",
   "status": "proved",
   "theorems": [
    "C81_rigid",
    "C81_angle",
    "C81_corner",
    "C81_start",
    "C81_measured_refuted"
   ],
   "note": "measured angle refuted"
  },
  {
   "property": "C82",
   "status": "proved",
   "theorems": [
    "C82_solver",
    "C82_solver_succeeds",
    "C82_transform",
    "C82_transform_exists",
    "C82_insert_knots",
    "C82_insert_knots_basis"
   ],
   "note": "la.solve is exact elimination; regularity of the collocation matrix is a hypothesis of C82_transform_exists only"
  },
  {
   "property": "C83",
   "status": "proved",
   "theorems": [
    "C83_sum",
    "C83_sum_exact",
    "C83_difference",
    "C83_product",
    "C83_product_exact",
    "C83_closed",
    "C83_closed_sum"
   ],
   "note": "with the explicit error bound of rounding entries below TOL"
  },
  {
   "property": "C84",
   "status": "proved",
   "theorems": [
    "C84_shift",
    "C84_stop",
    "C84_times",
    "C84_free",
    "C84_free_refuted",
    "C84_free_last_refuted",
    "C84_free_degenerate_refuted",
    "C84_multi",
    "C84_multi_negative_refuted",
    "C84_multi_shift_refuted",
    "C84_simulated"
   ],
   "note": "four corner cases refuted"
  },
  {
   "property": "C85",
   "status": "proved",
   "theorems": [
    "C85_smooth",
    "C85_stacked",
    "C85_single",
    "C85_gcode",
    "C85_gcode_quadratic",
    "C85_gcode_cubic",
    "C85_gcode_doubles",
    "C85_equal_cubes_refuted",
    "C85_sites_cubic",
    "C85_sites_quadratic",
    "C85_moving",
    "C85_origin",
    "C85_standstill_doubles",
    "C85_standstill_refuted",
    "C85_count_range",
    "C85_count_first",
    "C85_test_positive",
    "C85_test_negative_refuted",
    "C85_test_zero_refuted",
    "C85_zero_kept",
    "C85_negative_refuted",
    "C85_requested",
    "C85_requested_lower_refuted"
   ],
   "note": "standstill, negative coordinates and equal cubic segments refuted"
  },
  {
   "property": "C86",
   "status": "proved",
   "theorems": [
    "C86_history",
    "C86_python",
    "C86_obstacle_shutdown_refuted",
    "C86_obstacle_predicted",
    "C86_obstacle_numbered"
   ],
   "note": "obstacle constraint with shutdown refuted"
  },
  {
   "property": "C87",
   "status": "proved",
   "theorems": [
    "C87_retrieved",
    "C87_transformed",
    "C87_columns_refuted"
   ],
   "note": "several columns refuted"
  },
  {
   "property": "C88",
   "status": "proved",
   "theorems": [
    "C88_knots",
    "C88_basis",
    "C88_evaluation",
    "C88_sampling",
    "C88_initial_guess"
   ],
   "note": ""
  },
  {
   "property": "C89",
   "status": "proved",
   "theorems": [
    "C89_sum",
    "C89_constant",
    "C89_error",
    "C89_varying_input_refuted",
    "C89_restart",
    "C89_state_ode_refuted",
    "C89_ideal",
    "C89_integrated",
    "C89_defined",
    "C89_total",
    "C89_default_length_refuted"
   ],
   "note": "varying input, state-dependent models and missing trajectory length refuted"
  },
  {
   "property": "C90",
   "status": "proved",
   "theorems": [
    "C90_clock",
    "C90_retry_refuted",
    "C90_long_update_refuted",
    "C90_local_range",
    "C90_local_time",
    "C90_local_rounding_refuted"
   ],
   "note": "retry with shift, long updates and rounding to milliseconds refuted"
  },
  {
   "property": "C91",
   "status": "proved",
   "theorems": [
    "C91_clock",
    "C91_step_back",
    "C91_two_steps_back_refuted",
    "C91_z_time",
    "C91_z_late_refuted"
   ],
   "note": "two steps back refuted; z update one update late"
  },
  {
   "property": "C92",
   "status": "proved",
   "theorems": [
    "C92_shows",
    "C92_length",
    "C92_reversed_line_refuted",
    "C92_path_not_moved_refuted",
    "C92_move_only_refuted",
    "C92_path_first_refuted",
    "C92_polycubic_refuted",
    "C92_two_halves_refuted"
   ],
   "note": "reversed lines, translations, empty paths, leading paths, several cubics and two halves refuted"
  },
  {
   "property": "C93",
   "status": "proved",
   "theorems": [
    "C93_picture",
    "C93_fails",
    "C93_roundtrip",
    "C93_snap",
    "C93_snap_point",
    "C93_snap_nearest",
    "C93_snap_twice",
    "C93_grid",
    "C93_grid_square",
    "C93_grid_refuted",
    "C93_last_two_clicks",
    "C93_clicks",
    "C93_clicks_off",
    "C93_clicks_refuted",
    "C93_build",
    "C93_room",
    "C93_select",
    "C93_select_circle",
    "C93_select_rect",
    "C93_select_rect_refuted",
    "C93_accepted",
    "C93_accepted_refuted",
    "C93_move",
    "C93_move_back",
    "C93_margin",
    "C93_margin_outside",
    "C93_margin_refuted",
    "C93_load"
   ],
   "note": "right clicks with a shifted frame, first grid, selection of rectangles, large circles and margins refuted"
  },
  {
   "property": "C94",
   "status": "proved",
   "theorems": [
    "C94_rect",
    "C94_circle",
    "C94_no_transform_refuted",
    "C94_line_defined",
    "C94_line",
    "C94_line_refuted",
    "C94_polyline_length",
    "C94_polyline"
   ],
   "note": "figures without translation and strokes refuted"
  },
  {
   "property": "C95",
   "status": "proved",
   "theorems": [
    "C95_closest",
    "C95_closest_best",
    "C95_base",
    "C95_extended",
    "C95_corridor",
    "C95_staircase",
    "C95_start_refuted"
   ],
   "note": "paths that turn back refuted"
  },
  {
   "property": "C96",
   "status": "proved",
   "theorems": [
    "C96_move_frame",
    "C96_move_frame_exact",
    "C96_move_frame_side_refuted",
    "C96_move_frame_outside_refuted",
    "C96_moved_point",
    "C96_move_point",
    "C96_waypoints",
    "C96_none",
    "C96_none_refuted",
    "C96_other_side_refuted",
    "C96_corner_refuted"
   ],
   "note": "points on a side, far outside and corners refuted"
  },
  {
   "property": "C97",
   "status": "proved",
   "theorems": [
    "C97_stationary_total",
    "C97_stationary_fails",
    "C97_stationary",
    "C97_stationary_complete",
    "C97_stationary_rect",
    "C97_disc_refuted",
    "C97_moving",
    "C97_samples",
    "C97_moving_noticed",
    "C97_environment",
    "C97_fast_refuted",
    "C97_covering_refuted",
    "C97_rotated_refuted",
    "C97_neither_refuted",
    "C97_both_refuted",
    "C97_avoid_refuted"
   ],
   "note": "fast, covering, turned and doubly classified obstacles refuted"
  },
  {
   "property": "C98",
   "status": "proved",
   "theorems": [
    "C98_unusable",
    "C98_inside",
    "C98_return_refuted"
   ],
   "note": ""
  },
  {
   "property": "C99",
   "status": "proved",
   "theorems": [
    "C99_intersection",
    "C99_segments",
    "C99_l_shape",
    "C99_waypoint_refuted",
    "C99_corner"
   ],
   "note": "last waypoint of the first frame refuted"
  },
  {
   "property": "C100",
   "status": "proved",
   "theorems": [
    "C100_start",
    "C100_switch",
    "C100_one",
    "C100_listed",
    "C100_rebuild",
    "C100_ignored_refuted"
   ],
   "note": "obstacles that start to move in an earlier frame refuted"
  },
  {
   "property": "C101",
   "status": "proved",
   "theorems": [
    "C101_no_options",
    "C101_fixed_time",
    "C101_fine",
    "C101_type",
    "C101_default",
    "C101_shift",
    "C101_near",
    "C101_lshape",
    "C101_at_goal_refuted"
   ],
   "note": "vehicle at the goal refuted"
  },
  {
   "property": "C102",
   "status": "proved",
   "theorems": [
    "C102_start",
    "C102_switch",
    "C102_closed",
    "C102_short_refuted"
   ],
   "note": "time along the waypoints refuted"
  },
  {
   "property": "C103",
   "status": "proved",
   "theorems": [
    "C103_target",
    "C103_end"
   ],
   "note": ""
  },
  {
   "property": "C104",
   "status": "proved",
   "theorems": [
    "C104_same",
    "C104_length"
   ],
   "note": ""
  },
  {
   "property": "C105",
   "status": "proved",
   "theorems": [
    "C105_after",
    "C105_before",
    "C105_works",
    "C105_same"
   ],
   "note": ""
  },
  {
   "property": "C106",
   "status": "proved",
   "theorems": [
    "C106_close",
    "C106_works",
    "C106_equidistant",
    "C106_raises"
   ],
   "note": "with the explicit error bound of zeroing small entries; regularity for degree 4 and more is a hypothesis"
  },
  {
   "property": "C107",
   "status": "proved",
   "theorems": [
    "C107_close",
    "C107_equidistant",
    "C107_works",
    "C107_late_refuted",
    "C107_repeated_refuted",
    "C107_short_refuted"
   ],
   "note": "late start, repeated inner knots and short bases refuted"
  },
  {
   "property": "C108",
   "status": "proved",
   "theorems": [
    "C108_exact",
    "C108_plain",
    "C108_close",
    "C108_builds",
    "C108_number_refuted",
    "C108_stricter_refuted"
   ],
   "note": "with the explicit error bound of zeroing small entries; plain numbers and the converse refuted"
  },
  {
   "property": "C109",
   "status": "proved",
   "theorems": [
    "C109_skip",
    "C109_ends_refuted",
    "C109_zero_refuted"
   ],
   "note": "skipped intervals and skip=[0, 0] refuted"
  },
  {
   "property": "C110",
   "status": "proved",
   "theorems": [
    "C110_trip",
    "C110_two_norm"
   ],
   "note": "norm_2 with the explicit error bound of zeroing small entries"
  },
  {
   "property": "C111",
   "status": "proved",
   "theorems": [
    "C111_safe",
    "C111_close",
    "C111_vehicles",
    "C111_space",
    "C111_room",
    "C111_disc"
   ],
   "note": "exact for threshold 0, with explicit error bound otherwise"
  },
  {
   "property": "C112",
   "status": "proved",
   "theorems": [
    "C112_motion"
   ],
   "note": "for update times of whole samples and equal options for prediction and simulation; scipy's splev and odeint are exact in the model"
  },
  {
   "property": "C113",
   "status": "proved",
   "theorems": [
    "C113_limits"
   ],
   "note": "planar holonomic vehicle with norm_inf limits"
  },
  {
   "property": "C114",
   "status": "proved",
   "theorems": [
    "C114_plan"
   ],
   "note": "planar holonomic vehicle with norm_inf limits"
  },
  {
   "property": "C115",
   "status": "proved",
   "theorems": [
    "C115_safe"
   ],
   "note": "until an obstacle jumps within the update interval; obstacles that do not rotate or bounce"
  },
  {
   "property": "C116",
   "status": "proved",
   "theorems": [
    "C116_stops"
   ],
   "note": ""
  },
  {
   "property": "C117",
   "status": "proved",
   "theorems": [
    "C117_objective"
   ],
   "note": "threshold 0"
  },
  {
   "property": "C118",
   "status": "proved",
   "theorems": [
    "C118_mixed_refuted"
   ],
   "note": "refuted: both mixed option pairs give a prediction away from the simulated state"
  },
  {
   "property": "C119",
   "status": "proved",
   "theorems": [
    "C119_motion"
   ],
   "note": ""
  },
  {
   "property": "C120",
   "status": "proved",
   "theorems": [
    "C120_limits"
   ],
   "note": "planar holonomic vehicle with norm_inf limits"
  },
  {
   "property": "C121",
   "status": "proved",
   "theorems": [
    "C121_plan"
   ],
   "note": "planar holonomic vehicle with norm_inf limits"
  },
  {
   "property": "C122",
   "status": "proved",
   "theorems": [
    "C122_safe"
   ],
   "note": "until an obstacle jumps within the update interval; obstacles that do not rotate or bounce"
  },
  {
   "property": "C123",
   "status": "proved",
   "theorems": [
    "C123_arrives",
    "C123_skip"
   ],
   "note": "planar holonomic vehicle with norm_inf limits"
  },
  {
   "property": "C124",
   "status": "proved",
   "theorems": [
    "C124_idle"
   ],
   "note": ""
  },
  {
   "property": "C125",
   "status": "proved",
   "theorems": [
    "C125_stops",
    "C125_objective",
    "C125_terminates"
   ],
   "note": ""
  },
  {
   "property": "C126",
   "status": "proved",
   "theorems": [
    "C126_first_raises_refuted"
   ],
   "note": "refuted: an accepted first answer for which the update raises"
  },
  {
   "property": "C127",
   "status": "proved",
   "theorems": [
    "C127_columns_refuted"
   ],
   "note": "refuted: a simulation time with different numbers of columns"
  },
  {
   "property": "C128",
   "status": "proved",
   "theorems": [
    "C128_straight",
    "C128_orient_refuted"
   ],
   "note": "refuted for the heading of HolonomicOrient"
  },
  {
   "property": "C129",
   "status": "proved",
   "theorems": [
    "C129_rests"
   ],
   "note": ""
  },
  {
   "property": "C130",
   "status": "proved",
   "theorems": [
    "C130_angle",
    "C130_trailer",
    "C130_sizes"
   ],
   "note": ""
  },
  {
   "property": "C131",
   "status": "proved",
   "theorems": [
    "C131_rooms",
    "C131_holonomic_only"
   ],
   "note": "vehicles of other classes raise"
  },
  {
   "property": "C132",
   "status": "proved",
   "theorems": [
    "C132_reinitialize",
    "C132_needs_guess",
    "C132_one_segment",
    "C132_shape",
    "C132_fits",
    "C132_tool"
   ],
   "note": ""
  },
  {
   "property": "C133",
   "status": "proved",
   "theorems": [
    "C133_given",
    "C133_shared",
    "C133_fitting",
    "C133_reset_refuted",
    "C133_timeout"
   ],
   "note": "without an argument it always raises"
  },
  {
   "property": "C134",
   "status": "proved",
   "theorems": [
    "C134_used",
    "C134_refused",
    "C134_default",
    "C134_default_refuted"
   ],
   "note": "refuted: the vehicle's own guess is not what the variables start with"
  },
  {
   "property": "C135",
   "status": "proved",
   "theorems": [
    "C135_heading_refuted",
    "C135_trailer_refuted",
    "C135_period"
   ],
   "note": "refuted: such a goal is never reached"
  },
  {
   "property": "C136",
   "status": "proved",
   "theorems": [
    "C136_drive",
    "C136_ends"
   ],
   "note": ""
  },
  {
   "property": "C137",
   "status": "proved",
   "theorems": [
    "C137_limits"
   ],
   "note": ""
  },
  {
   "property": "C138",
   "status": "proved",
   "theorems": [
    "C138_rest"
   ],
   "note": ""
  },
  {
   "property": "C139",
   "status": "proved",
   "theorems": [
    "C139_safe"
   ],
   "note": ""
  },
  {
   "property": "C140",
   "status": "proved",
   "theorems": [
    "C140_cost",
    "C140_run_refuted"
   ],
   "note": "refuted: the objective is not reset between runs"
  },
  {
   "property": "C141",
   "status": "proved",
   "theorems": [
    "C141_steps",
    "C141_jump_refuted"
   ],
   "note": "refuted for ideal updates"
  },
  {
   "property": "C142",
   "status": "proved",
   "theorems": [
    "C142_stamps"
   ],
   "note": ""
  },
  {
   "property": "C143",
   "status": "proved",
   "theorems": [
    "C143_circle",
    "C143_rectangle",
    "C143_beam"
   ],
   "note": ""
  },
  {
   "property": "C144",
   "status": "proved",
   "theorems": [
    "C144_regular",
    "C144_circles"
   ],
   "note": ""
  },
  {
   "property": "C145",
   "status": "proved",
   "theorems": [
    "C145_sphere",
    "C145_cuboid",
    "C145_prism",
    "C145_plate"
   ],
   "note": ""
  },
  {
   "property": "C146",
   "status": "proved",
   "theorems": [
    "C146_polyhedron",
    "C146_circle",
    "C146_solid",
    "C146_sphere"
   ],
   "note": ""
  },
  {
   "property": "C147",
   "status": "proved",
   "theorems": [
    "C147_drawn",
    "C147_rectangle",
    "C147_solid",
    "C147_plate_refuted"
   ],
   "note": "refuted for a plate made of a beam"
  },
  {
   "property": "C148",
   "status": "proved",
   "theorems": [
    "C148_holonomic",
    "C148_dubins",
    "C148_solid"
   ],
   "note": ""
  },
  {
   "property": "C149",
   "status": "proved",
   "theorems": [
    "C149_dubins",
    "C149_bicycle",
    "C149_bicycle_outside_refuted",
    "C149_bicycle_hits_refuted",
    "C149_agv",
    "C149_agv_long_refuted",
    "C149_agv_steered_refuted",
    "C149_quadrotor",
    "C149_quadrotor3"
   ],
   "note": "refuted: bicycle outside its disc, long or steered AGV outside its rectangle"
  },
  {
   "property": "C150",
   "status": "proved",
   "theorems": [
    "C150_trailer",
    "C150_unseen",
    "C150_lead_refuted"
   ],
   "note": "refuted for the vehicle in front"
  },
  {
   "property": "C151",
   "status": "proved",
   "theorems": [
    "C151_room",
    "C151_turned_refuted",
    "C151_environment",
    "C151_shapes"
   ],
   "note": "refuted for rooms with an orientation"
  },
  {
   "property": "C152",
   "status": "proved",
   "theorems": [
    "C152_set",
    "C152_set_works",
    "C152_child",
    "C152_child_works",
    "C152_array",
    "C152_splines",
    "C152_plain",
    "C152_none"
   ],
   "note": ""
  },
  {
   "property": "C153",
   "status": "proved",
   "theorems": [
    "C153_all",
    "C153_works",
    "C153_back",
    "C153_length",
    "C153_place"
   ],
   "note": ""
  },
  {
   "property": "C154",
   "status": "proved",
   "theorems": [
    "C154_plain",
    "C154_group",
    "C154_set",
    "C154_init",
    "C154_shapes",
    "C154_works"
   ],
   "note": ""
  },
  {
   "property": "C155",
   "status": "proved",
   "theorems": [
    "C155_transform",
    "C155_works",
    "C155_names",
    "C155_raises",
    "C155_ten_refuted",
    "C155_label_refuted"
   ],
   "note": "refuted for ten segments and for labels that contain seg"
  },
  {
   "property": "C156",
   "status": "proved",
   "theorems": [
    "C156_init",
    "C156_works"
   ],
   "note": ""
  },
  {
   "property": "C157",
   "status": "proved",
   "theorems": [
    "C157_within",
    "C157_shift",
    "C157_works",
    "C157_slack_refuted"
   ],
   "note": "refuted for the splines of soft constraints"
  },
  {
   "property": "C158",
   "status": "proved",
   "theorems": [
    "C158_guess",
    "C158_points",
    "C158_step",
    "C158_none",
    "C158_frames",
    "C158_frames_none",
    "C158_start_refuted",
    "C158_twice_refuted"
   ],
   "note": "refuted for the start of the guess"
  },
  {
   "property": "C159",
   "status": "proved",
   "theorems": [
    "C159_solve",
    "C159_twice",
    "C159_infeasible_refuted"
   ],
   "note": "refuted for points that are not feasible and for start times"
  },
  {
   "property": "C160",
   "status": "proved",
   "theorems": [
    "C160_hold",
    "C160_sleep"
   ],
   "note": ""
  },
  {
   "property": "C161",
   "status": "proved",
   "theorems": [
    "C161_operations",
    "C161_regular",
    "C161_unique",
    "C161_elevate"
   ],
   "note": "splines with one knot interval, degree up to 250; the regularity of the sampling matrix is checked by computation for these degrees"
  },
  {
   "property": "C162",
   "status": "proved",
   "theorems": [
    "C162_track"
   ],
   "note": ""
  },
  {
   "property": "C163",
   "status": "proved",
   "theorems": [
    "C163_trip",
    "C163_exact"
   ],
   "note": ""
  },
  {
   "property": "C164",
   "status": "proved",
   "theorems": [
    "C164_reach",
    "C164_gap"
   ],
   "note": ""
  },
  {
   "property": "C165",
   "status": "proved",
   "theorems": [
    "C165_exact",
    "C165_safe"
   ],
   "note": ""
  },
  {
   "property": "C166",
   "status": "proved",
   "theorems": [
    "C166_trip"
   ],
   "note": "exact operations (tolerance 0)"
  },
  {
   "property": "C167",
   "status": "proved",
   "theorems": [
    "C167_trip"
   ],
   "note": "exact operations (tolerance 0)"
  },
  {
   "property": "C168",
   "status": "proved",
   "theorems": [
    "C168_trip"
   ],
   "note": "exact operations (tolerance 0); without substitution"
  },
  {
   "property": "C169",
   "status": "proved",
   "theorems": [
    "C169_planar",
    "C169_simple"
   ],
   "note": "exact operations (tolerance 0)"
  },
  {
   "property": "C170",
   "status": "proved",
   "theorems": [
    "C170_axes",
    "C170_one",
    "C170_three",
    "C170_norm",
    "C170_orient"
   ],
   "note": ""
  },
  {
   "property": "C171",
   "status": "proved",
   "theorems": [
    "C171_exact",
    "C171_close",
    "C171_space",
    "C171_end_speed_refuted"
   ],
   "note": "refuted for the end velocity of Quadrotor3D"
  },
  {
   "property": "C172",
   "status": "proved",
   "theorems": [
    "C172_apart"
   ],
   "note": ""
  },
  {
   "property": "C173",
   "status": "proved",
   "theorems": [
    "C173_apart3"
   ],
   "note": ""
  },
  {
   "property": "C174",
   "status": "proved",
   "theorems": [
    "C174_raises"
   ],
   "note": ""
  },
  {
   "property": "C175",
   "status": "proved",
   "theorems": [
    "C175_names",
    "C175_kinds",
    "C175_slack_refuted"
   ],
   "note": "refuted for the names of the slacks"
  },
  {
   "property": "C176",
   "status": "proved",
   "theorems": [
    "C176_keeps",
    "C176_two_refuted"
   ],
   "note": "refuted for two vehicles in a circle"
  },
  {
   "property": "C177",
   "status": "proved",
   "theorems": [
    "C177_soft"
   ],
   "note": ""
  },
  {
   "property": "C178",
   "status": "proved",
   "theorems": [
    "C178_room"
   ],
   "note": ""
  },
  {
   "property": "C179",
   "status": "proved",
   "theorems": [
    "C179_one",
    "C179_ratio",
    "C179_hull"
   ],
   "note": ""
  },
  {
   "property": "C180",
   "status": "proved",
   "theorems": [
    "C180_close",
    "C180_quotient",
    "C180_zero_refuted",
    "C180_times",
    "C180_scaled",
    "C180_sum"
   ],
   "note": "The statement fails for denominators with a zero coefficient: C180_zero_refuted. __div__ is only called by Python 2 for the operator /."
  },
  {
   "property": "C181",
   "status": "proved",
   "theorems": [
    "C181_slope",
    "C181_orders",
    "C181_kinks_refuted"
   ],
   "note": "The statement without the condition on the knots is refuted: C181_kinks_refuted."
  },
  {
   "property": "C182",
   "status": "proved",
   "theorems": [
    "C182_even",
    "C182_weights_refuted"
   ],
   "note": "The statement for different weights is refuted: C182_weights_refuted."
  },
  {
   "property": "C183",
   "status": "proved",
   "theorems": [
    "C183_value",
    "C183_sum",
    "C183_difference",
    "C183_shifted",
    "C183_scaled",
    "C183_product",
    "C183_two_only",
    "C183_minus_value",
    "C183_minus_refuted"
   ],
   "note": "number - spline is refuted: C183_minus_refuted."
  },
  {
   "property": "C184",
   "status": "proved",
   "theorems": [
    "C184_means",
    "C184_right",
    "C184_order_refuted",
    "C184_raises_refuted"
   ],
   "note": "More than two variables with different bases are refuted: C184_order_refuted, C184_raises_refuted. In two variables the coefficients are taken to be a cvxopt matrix (line 675)."
  },
  {
   "property": "C185",
   "status": "proved",
   "theorems": [
    "C185_smooth",
    "C185_start",
    "C185_end",
    "C185_times",
    "C185_jerk_refuted"
   ],
   "note": "Continuity of the jerk is refuted: C185_jerk_refuted."
  },
  {
   "property": "C186",
   "status": "proved",
   "theorems": [
    "C186_columns",
    "C186_rows",
    "C186_twice_refuted",
    "C186_short"
   ],
   "note": "That no column is recorded twice is refuted: C186_twice_refuted."
  },
  {
   "property": "C187",
   "status": "proved",
   "theorems": [
    "C187_rejected",
    "C187_retried",
    "C187_positions",
    "C187_speed_refuted",
    "C187_line",
    "C187_flat",
    "C187_line_refuted"
   ],
   "note": "Continuity of the velocity over a failure is refuted: C187_speed_refuted; the perturbation for vertical lines: C187_line_refuted."
  },
  {
   "property": "C188",
   "status": "proved",
   "theorems": [
    "C188_first",
    "C188_many",
    "C188_counted",
    "C188_limit",
    "C188_restart",
    "C188_survives_refuted"
   ],
   "note": "The restart of the count with a successful retry is refuted: C188_survives_refuted."
  },
  {
   "property": "C189",
   "status": "proved",
   "theorems": [
    "C189_end",
    "C189_progress",
    "C189_early_refuted",
    "C189_skip_refuted"
   ],
   "note": "The statement for two segments at a time is refuted: C189_early_refuted; that every block is machined: C189_skip_refuted."
  },
  {
   "property": "C190",
   "status": "proved",
   "theorems": [
    "C190_there",
    "C190_back",
    "C190_laid_out",
    "C190_entry",
    "C190_spline",
    "C190_empty",
    "C190_label_refuted"
   ],
   "note": "The statement for labels containing dd or admm is refuted: C190_label_refuted."
  },
  {
   "property": "C191",
   "status": "proved",
   "theorems": [
    "C191_all",
    "C191_vector",
    "C191_consecutive",
    "C191_blocks",
    "C191_over_knot",
    "C191_forward",
    "C191_back",
    "C191_gap_refuted",
    "C191_many_refuted"
   ],
   "note": "Indices with gaps are refuted: C191_gap_refuted; variables with more splines than coefficients: C191_many_refuted."
  },
  {
   "property": "C192",
   "status": "proved",
   "theorems": [
    "C192_defined",
    "C192_nonneg",
    "C192_zero",
    "C192_bound",
    "C192_formation",
    "C192_off_centre_refuted"
   ],
   "note": "That a perfect formation has no error is refuted for configurations that are not centred: C192_off_centre_refuted."
  },
  {
   "property": "C193",
   "status": "proved",
   "theorems": [
    "C193_partition",
    "C193_alike",
    "C193_distinct",
    "C193_builder"
   ],
   "note": ""
  },
  {
   "property": "C194",
   "status": "proved",
   "theorems": [
    "C194_arguments",
    "C194_column",
    "C194_delay_refuted"
   ],
   "note": "That delay and flags are respected is refuted: C194_delay_refuted."
  },
  {
   "property": "C195",
   "status": "proved",
   "theorems": [
    "C195_first",
    "C195_next",
    "C195_last",
    "C195_single",
    "C195_made",
    "C195_made_refuted"
   ],
   "note": "A guess for one segment after a solution with one segment, with several allowed, is refuted: C195_made_refuted."
  },
  {
   "property": "C196",
   "status": "proved",
   "theorems": [
    "C196_close",
    "C196_stays",
    "C196_ends",
    "C196_start",
    "C196_start_ends",
    "C196_circle_refuted",
    "C196_flat",
    "C196_height_refuted"
   ],
   "note": "Full circles and segments that are not at height zero are refuted: C196_circle_refuted, C196_height_refuted."
  },
  {
   "property": "C197",
   "status": "proved",
   "theorems": [
    "C197_keeps",
    "C197_keeps_z",
    "C197_least",
    "C197_passes",
    "C197_total",
    "C197_checked",
    "C197_z_refuted",
    "C197_y_refuted",
    "C197_sign_refuted"
   ],
   "note": "Limits in z, lower limits in y and negative values are refuted: C197_z_refuted, C197_y_refuted, C197_sign_refuted."
  },
  {
   "property": "C198",
   "status": "proved",
   "theorems": [
    "C198_slack_close",
    "C198_slack",
    "C198_stop",
    "C198_default",
    "C198_goal",
    "C198_own",
    "C198_rest_refuted"
   ],
   "note": "That the vehicle ends at rest at its conditions is refuted: C198_rest_refuted."
  },
  {
   "property": "C199",
   "status": "proved",
   "theorems": [
    "C199_shown",
    "C199_in_time",
    "C199_pass",
    "C199_run",
    "C199_clock"
   ],
   "note": ""
  },
  {
   "property": "C200",
   "status": "proved",
   "theorems": [
    "C200_again",
    "C200_even",
    "C200_default_refuted"
   ],
   "note": "Even recorded times with the default argument of step are refuted: C200_default_refuted."
  },
  {
   "property": "C201",
   "status": "proved",
   "theorems": [
    "C201_run_once"
   ],
   "note": ""
  },
  {
   "property": "C202",
   "status": "proved",
   "theorems": [
    "C202_hard",
    "C202_replan",
    "C202_zero",
    "C202_zero_refuted"
   ],
   "note": "Agreement of clock and recorded times after a hard stop at time 0 is refuted: C202_zero_refuted."
  },
  {
   "property": "C203",
   "status": "proved",
   "theorems": [
    "C203_add",
    "C203_environment",
    "C203_fill",
    "C203_owns_add",
    "C203_owns_fill",
    "C203_copy",
    "C203_count_refuted",
    "C203_replace_refuted",
    "C203_copy_refuted"
   ],
   "note": "Counting on fill_room, replacing obstacles, and copies of environments with filled rooms are refuted: C203_count_refuted, C203_replace_refuted, C203_copy_refuted."
  },
  {
   "property": "C204",
   "status": "proved",
   "theorems": [
    "C204_session",
    "C204_index",
    "C204_lengths",
    "C204_counts",
    "C204_idle",
    "C204_doubles_refuted"
   ],
   "note": "Times that are not whole multiples in double precision are refuted: C204_doubles_refuted."
  },
  {
   "property": "C205",
   "status": "proved",
   "theorems": [
    "C205_pass_on",
    "C205_initial",
    "C205_missing_refuted"
   ],
   "note": "That every vehicle gets a condition is refuted: C205_missing_refuted."
  },
  {
   "property": "C206",
   "status": "proved",
   "theorems": [
    "C206_vehicles",
    "C206_fleets_refuted"
   ],
   "note": "Lists of several fleets are refuted: C206_fleets_refuted."
  },
  {
   "property": "C207",
   "status": "proved",
   "theorems": [
    "C207_points",
    "C207_number",
    "C207_rest",
    "C207_mixed_refuted",
    "C207_long_refuted"
   ],
   "note": "Mixed numbers and c lines with several curves are refuted: C207_mixed_refuted, C207_long_refuted."
  },
  {
   "property": "C208",
   "status": "proved",
   "theorems": [
    "C208_minus",
    "C208_stops",
    "C208_written"
   ],
   "note": "The general failure is C208_minus."
  },
  {
   "property": "C209",
   "status": "proved",
   "theorems": [
    "C209_search",
    "C209_inside",
    "C209_groups_refuted"
   ],
   "note": "Paths of other groups are refuted: C209_groups_refuted."
  },
  {
   "property": "C210",
   "status": "proved",
   "theorems": [
    "C210_round",
    "C210_lists",
    "C210_add",
    "C210_dots",
    "C210_error",
    "C210_dir_refuted",
    "C210_namespace_refuted",
    "C210_name_refuted"
   ],
   "note": "Directories with a dot and underscores are refuted: C210_dir_refuted, C210_namespace_refuted, C210_name_refuted."
  },
  {
   "property": "C211",
   "status": "proved",
   "theorems": [
    "C211_fill",
    "C211_order",
    "C211_between_refuted"
   ],
   "note": "Keys as text between two places are refuted: C211_between_refuted."
  },
  {
   "property": "C212",
   "status": "proved",
   "theorems": [
    "C212_label",
    "C212_guard",
    "C212_capitals",
    "C212_missing",
    "C212_missing_length",
    "C212_comment_refuted"
   ],
   "note": "Comments behind the label are refuted: C212_comment_refuted."
  }
 ]
}