{
 "claims": [
  {
   "property": "C01",
   "status": "proved",
   "theorems": [
    "C01_boolean_sort"
   ],
   "note": "Any array, any sub-range, any predicate on the element designated by the iterator; also shows the fuel j-i (number of predicate calls) suffices."
  },
  {
   "property": "C02",
   "status": "proved",
   "theorems": [
    "C02_safe",
    "C02_blocks",
    "C02_null"
   ],
   "note": "requests whose size plus alignment slack fits in 64 bits"
  },
  {
   "property": "C03",
   "status": "proved",
   "theorems": [
    "C03_all_returned",
    "C03_no_idle_block"
   ],
   "note": ""
  },
  {
   "property": "C04",
   "status": "proved",
   "theorems": [
    "C04_succeeds",
    "C04_wraps_refuted",
    "C04_overlap_refuted",
    "C04_slack_refuted"
   ],
   "note": "success is proved below 2^64; the wrapping cases are the refuted ones"
  },
  {
   "property": "C05",
   "status": "proved",
   "theorems": [
    "C05_overlaps_iff_common_point",
    "C05_overlaps_sym",
    "C05_invalid_overlaps_nothing"
   ],
   "note": "Exact arithmetic (reals)."
  },
  {
   "property": "C06",
   "status": "proved",
   "theorems": [
    "C06_grid_exact",
    "C06_touching_missed_refuted",
    "C06_disjoint_reported_refuted"
   ],
   "note": "binary32 (Flocq). Exactness for exponents -149 <= e <= 103; the two refuted theorems give finite witnesses off the grid."
  },
  {
   "property": "C07",
   "status": "proved",
   "theorems": [
    "C07_combined_least",
    "C07_combined_contains",
    "C07_combined_laws",
    "C07_equality_is_same_points",
    "C07_instances"
   ],
   "note": "Proved for every total preorder of coordinates; instances: reals and NaN-free binary32."
  },
  {
   "property": "C08",
   "status": "proved",
   "theorems": [
    "C08_contains_iff"
   ],
   "note": "Reals and NaN-free binary32."
  },
  {
   "property": "C09",
   "status": "proved",
   "theorems": [
    "C09_vertex_box_tightest",
    "C09_sides_attained",
    "C09_indeterminate_iff_empty"
   ],
   "note": "Reals and NaN-free binary32; sides attained for any arithmetic."
  },
  {
   "property": "C10",
   "status": "proved",
   "theorems": [
    "C10_no_undefined_behaviour",
    "C10_pointer_structure"
   ],
   "note": "Any Num (arithmetic), any element type, any allocator and priority-queue choices; each call carries its own environment."
  },
  {
   "property": "C11",
   "status": "proved",
   "theorems": [
    "C11_contents",
    "C11_size"
   ],
   "note": "Any arithmetic."
  },
  {
   "property": "C12",
   "status": "proved",
   "theorems": [
    "C12_iteration"
   ],
   "note": "Any arithmetic."
  },
  {
   "property": "C13",
   "status": "proved",
   "theorems": [
    "C13_bounds_are_unions"
   ],
   "note": "Any arithmetic whose order is total on the boxes used; instances: reals and NaN-free binary32."
  },
  {
   "property": "C14",
   "status": "proved",
   "theorems": [
    "C14_forEachIn_exact",
    "C14_forEachAt_exact",
    "C14_forEachIn_binary32",
    "C14_forEachAt_binary32"
   ],
   "note": "Reals; binary32 on the exactness grid."
  },
  {
   "property": "C15",
   "status": "proved",
   "theorems": [
    "C15_forEachOverlapping_exact",
    "C15_forEachOverlapping_binary32",
    "C15_list_exact",
    "C15_list_binary32"
   ],
   "note": "An entry repeated in the list is reported as often as it occurs."
  },
  {
   "property": "C16",
   "status": "proved",
   "theorems": [
    "C16_updateAndCollide",
    "C16_laws_hold"
   ],
   "note": "Termination, contents and one update per element for any arithmetic; exact pair reporting under the overlap laws, which hold for the reals and for binary32 on the grid."
  },
  {
   "property": "C17",
   "status": "proved",
   "theorems": [
    "C17_iterators_stable",
    "C17_end_stable"
   ],
   "note": "end() is stable through everything except clear()."
  },
  {
   "property": "C18",
   "status": "proved",
   "theorems": [
    "C18_erase_returns_next",
    "C18_erase_loop_visits_all_refuted",
    "C18_erase_loop_visits_once_refuted"
   ],
   "note": "The refuted theorems give a tree on which the erase loop skips an element, and one on which it visits an element twice."
  },
  {
   "property": "C19",
   "status": "proved",
   "theorems": [
    "C19_insert_defined_iff_finite"
   ],
   "note": "binary32."
  },
  {
   "property": "C20",
   "status": "proved",
   "theorems": [
    "C20_insert_picks_cheapest"
   ],
   "note": "Reals."
  },
  {
   "property": "C21",
   "status": "proved",
   "theorems": [
    "C21_owned_once",
    "C21_destroy_frees_all",
    "C21_clear_frees_all",
    "C21_moved_from_is_indeterminate",
    "C21_move_assignment_swaps"
   ],
   "note": "Copying the indeterminate pointer inside std::swap is let pass by the model; using it is UB."
  },
  {
   "property": "C22",
   "status": "proved",
   "theorems": [
    "C22_product_associative",
    "C22_product_distributes",
    "C22_identity_neutral",
    "C22_transpose",
    "C22_product_is_composition",
    "C22_linear",
    "C22_storage"
   ],
   "note": "Reals, all dimensions; entries compared one by one."
  },
  {
   "property": "C23",
   "status": "proved",
   "theorems": [
    "C23_valid_iff_det",
    "C23_solve",
    "C23_singular_throws",
    "C23_invert"
   ],
   "note": "Reals."
  },
  {
   "property": "C24",
   "status": "proved",
   "theorems": [
    "C24_valid_iff_independent",
    "C24_solve",
    "C24_singular_throws",
    "C24_factors",
    "C24_invert"
   ],
   "note": "Reals, all n."
  },
  {
   "property": "C25",
   "status": "proved",
   "theorems": [
    "C25_lcp",
    "C25_not_positive_definite_refuted"
   ],
   "note": "Reals."
  },
  {
   "property": "C26",
   "status": "proved",
   "theorems": [
    "C26_fixed_point",
    "C26_exact_fixed_point_solves",
    "C26_never_returns"
   ],
   "note": "Fixed point in exact arithmetic; non-termination in exact arithmetic and in binary32."
  },
  {
   "property": "C27",
   "status": "proved",
   "theorems": [
    "C27_segment_nearest"
   ],
   "note": "exact arithmetic; A = B included"
  },
  {
   "property": "C28",
   "status": "proved",
   "theorems": [
    "C28_triangle_nearest",
    "C28_weights",
    "C28_tiny_clockwise_refuted"
   ],
   "note": "exact arithmetic; clockwise triangles of doubled area within the 1e-6 tolerance are misclassified (witness)"
  },
  {
   "property": "C29",
   "status": "proved",
   "theorems": [
    "C29_support",
    "C29_support_any",
    "C29_zero_direction"
   ],
   "note": "real numbers, and any arithmetic with totally ordered dot products (binary32 without NaN)"
  },
  {
   "property": "C30",
   "status": "proved",
   "theorems": [
    "C30_first_vertex",
    "C30_direction",
    "C30_polygon_direction",
    "C30_translation",
    "C30_degenerate",
    "C30_box",
    "C30_triangle",
    "C30_chord"
   ],
   "note": "exact arithmetic, non-degenerate polygons"
  },
  {
   "property": "C31",
   "status": "proved",
   "theorems": [
    "C31_polygon",
    "C31_vertices_any",
    "C31_throws",
    "C31_otherwise_succeeds"
   ],
   "note": "area sign in exact arithmetic, vertices for any arithmetic"
  },
  {
   "property": "C32",
   "status": "proved",
   "theorems": [
    "C32_edges",
    "C32_next_previous",
    "C32_inverse",
    "C32_sides"
   ],
   "note": "The sides are stated over the reals."
  },
  {
   "property": "C33",
   "status": "proved",
   "theorems": [
    "C33_decision",
    "C33_decision_flat",
    "C33_on_a_line_refuted",
    "C33_binary32_refuted"
   ],
   "note": "exact arithmetic; counterexamples for collinear shapes and for underflow in binary32 proved"
  },
  {
   "property": "C34",
   "status": "proved",
   "theorems": [
    "C34_products_compose",
    "C34_products_matrix",
    "C34_matrix_acts",
    "C34_inverse",
    "C34_inverse_rotation",
    "C34_inverse_translation",
    "C34_inverse_matrix",
    "C34_isometry",
    "C34_around",
    "C34_identity"
   ],
   "note": "exact arithmetic, exact cos and sin"
  },
  {
   "property": "C35",
   "status": "proved",
   "theorems": [
    "C35_positive",
    "C35_positive_float",
    "C35_inverse",
    "C35_visible",
    "C35_onto"
   ],
   "note": "positivity in binary32 as well"
  },
  {
   "property": "C36",
   "status": "proved",
   "theorems": [
    "C36_scroll"
   ],
   "note": "exact arithmetic"
  },
  {
   "property": "C37",
   "status": "proved",
   "theorems": [
    "C37_sum",
    "C37_monoid",
    "C37_total",
    "C37_history",
    "C37_order",
    "C37_polygon"
   ],
   "note": "exact arithmetic; histories of add/remove/impulse/velocity operations"
  },
  {
   "property": "C38",
   "status": "proved",
   "theorems": [
    "C38_impulse",
    "C38_pair"
   ],
   "note": "exact arithmetic"
  },
  {
   "property": "C39",
   "status": "proved",
   "theorems": [
    "C39_gravity"
   ],
   "note": "exact arithmetic; all colliders of each body visited (field domain contains the body)"
  },
  {
   "property": "C40",
   "status": "proved",
   "theorems": [
    "C40_no_time",
    "C40_strict"
   ],
   "note": "for every behaviour of the constraints that is defined; reachable = any history of public operations that returned; also under the strict reading of ~Body when the step returns"
  },
  {
   "property": "C41",
   "status": "proved",
   "theorems": [
    "C41_islands",
    "C41_library",
    "C41_limits_refuted"
   ],
   "note": "C41_islands: any constraints whose activity depends on their own state only (steady) and which leave resting bodies of infinite mass at rest (still). C41_library: equality solvers and contacts of the library in exact arithmetic, for constraints in which infinite mass goes with infinite inertia (weighty). C41_limits_refuted: for a limited distance constraint in binary32 a moving body is in two islands of one step"
  },
  {
   "property": "C42",
   "status": "proved",
   "theorems": [
    "C42_waking",
    "C42_asleep",
    "C42_leak_refuted"
   ],
   "note": "C42_waking gives the two directions between the world at the beginning and at the end of solving the islands (wk_on uses awake bodies in the island; wk_off allows awake bodies joined to it); C42_leak_refuted shows the intended statement (undisturbed bodies stay asleep) is false in a reachable binary32 world"
  },
  {
   "property": "C43",
   "status": "proved",
   "theorems": [
    "C43_immobile",
    "C43_clockwise_refuted",
    "C43_counterclockwise"
   ],
   "note": "the safety claim is refuted for clockwise spins, as the property says"
  },
  {
   "property": "C44",
   "status": "proved",
   "theorems": [
    "C44_tidy",
    "C44_step",
    "C44_log",
    "C44_fate"
   ],
   "note": "ghost log of callbacks and releases; shouldDie of user classes is an arbitrary predicate"
  },
  {
   "property": "C45",
   "status": "proved",
   "theorems": [
    "C45_one",
    "C45_step"
   ],
   "note": "which pairs overlap is property C16; here the reported pairs are arbitrary"
  },
  {
   "property": "C46",
   "status": "proved",
   "theorems": [
    "C46_step",
    "C46_clear",
    "C46_safe"
   ],
   "note": "not completing normally means undefined behaviour or an exception; the example computes undefined behaviour"
  },
  {
   "property": "C47",
   "status": "proved",
   "theorems": [
    "C47_velocity",
    "C47_soft",
    "C47_solvable",
    "C47_hinge_solvable",
    "C47_hinge",
    "C47_dominance",
    "C47_dominance_keeps"
   ],
   "note": "Exact arithmetic. Any constraint function with the identity clamp, any dimension; the solver state after initSolve with any accumulated impulse and any store."
  },
  {
   "property": "C48",
   "status": "proved",
   "theorems": [
    "C48_momentum",
    "C48_coincide",
    "C48_distance",
    "C48_contact"
   ],
   "note": "Exact arithmetic; hinge, weld, rotation, distance and contact, warmstart and velocity solve of all solvers."
  },
  {
   "property": "C49",
   "status": "proved",
   "theorems": [
    "C49_cone",
    "C49_exact",
    "C49_binary32"
   ],
   "note": "Any arithmetic with the sign laws (reals, binary32 incl. NaN), any history of contact calls."
  },
  {
   "property": "C50",
   "status": "proved",
   "theorems": [
    "C50_reached",
    "C50_inactive",
    "C50_switch",
    "C50_keep",
    "C50_sign",
    "C50_lower",
    "C50_upper"
   ],
   "note": "Decision, reset and sign for any dimension and history; complementarity for one-dimensional limits (all limit constraints in the code)."
  },
  {
   "property": "C51",
   "status": "proved",
   "theorems": [
    "C51_settings",
    "C51_translation",
    "C51_components",
    "C51_rotation",
    "C51_off",
    "C51_accel",
    "C51_target",
    "C51_target_torque"
   ],
   "note": "Exact arithmetic, any settings history and any number of solver calls in a step."
  },
  {
   "property": "C52",
   "status": "proved",
   "theorems": [
    "C52_construct",
    "C52_exact",
    "C52_current",
    "C52_min_only"
   ],
   "note": "Minimum-only construction throws in any arithmetic; the accepted cases are characterised in exact arithmetic."
  },
  {
   "property": "C53",
   "status": "proved",
   "theorems": [
    "C53_symmetric",
    "C53_priority",
    "C53_value",
    "C53_between",
    "C53_unit"
   ],
   "note": "exact arithmetic"
  },
  {
   "property": "C54",
   "status": "proved",
   "theorems": [
    "C54_statistics",
    "C54_partial_measures",
    "C54_moved_timer"
   ],
   "note": "exact arithmetic; measures are non-negative durations"
  },
  {
   "property": "C55",
   "status": "proved",
   "theorems": [
    "C55_batches_draw_the_fans",
    "C55_too_few_vertices_throw",
    "C55_any_size_refuted"
   ],
   "note": "Any sequence of draw and flush calls with 3..64511 vertices per polygon; the batch decoding (three indices at a time into the uploaded buffer) is the spec. The refuted theorem shows the bound is needed: 65535 vertices yield one triangle. OpenGL itself is a log of uploaded buffers."
  },
  {
   "property": "C56",
   "status": "proved",
   "theorems": [
    "C56_none_left",
    "C56_step",
    "C56_works",
    "C56_dangles",
    "C56_clear"
   ],
   "note": "press may find any list of bodies under the mouse"
  },
  {
   "property": "C57",
   "status": "proved",
   "theorems": [
    "C57_displacement",
    "C57_upright",
    "C57_C58_refuted"
   ],
   "note": "exact arithmetic"
  },
  {
   "property": "C58",
   "status": "proved",
   "theorems": [
    "C58_velocity_field",
    "C57_C58_refuted"
   ],
   "note": "exact arithmetic"
  },
  {
   "property": "C59",
   "status": "proved",
   "theorems": [
    "C59_rejected_stays",
    "C59_later_removals_throw"
   ],
   "note": "exact arithmetic"
  },
  {
   "property": "C60",
   "status": "proved",
   "theorems": [
    "C60_point_ends",
    "C60_large_precision_never_ends",
    "C60_precision"
   ],
   "note": "The loop is modelled with its Uint8 counter; beyond 255 every amount of fuel is used up. C60_precision: the precision is never below 3."
  },
  {
   "property": "C61",
   "status": "proved",
   "theorems": [
    "C61_line_is_a_rectangle",
    "C61_zero_length_throws"
   ],
   "note": "Exact arithmetic; square tips only (the other tips throw)."
  },
  {
   "property": "C62",
   "status": "proved",
   "theorems": [
    "C62_one",
    "C62_two",
    "C62_mass"
   ],
   "note": "Exact arithmetic."
  },
  {
   "property": "C63",
   "status": "proved",
   "theorems": [
    "C63_velocities",
    "C63_positions"
   ],
   "note": "Any arithmetic."
  },
  {
   "property": "C64",
   "status": "proved",
   "theorems": [
    "C64_step",
    "C64_clear",
    "C64_library"
   ],
   "note": "with ~Body read leniently (see C65) and the stated restrictions on calls (arguments are objects of the world, setContactFactory only without contacts)"
  },
  {
   "property": "C65",
   "status": "proved",
   "theorems": [
    "C65_step",
    "C65_bare",
    "C65_clear"
   ],
   "note": ""
  },
  {
   "property": "C66",
   "status": "proved",
   "theorems": [
    "C66_firm"
   ],
   "note": "masses are those computed when the constraint was created"
  },
  {
   "property": "C67",
   "status": "proved",
   "theorems": [
    "C67_penetration_minimal",
    "C67_touching_throws_refuted",
    "C67_zero"
   ],
   "note": "exact arithmetic, overlapping shapes; touching shapes can throw"
  },
  {
   "property": "C68",
   "status": "proved",
   "theorems": [
    "C68_separation_reaches",
    "C68_not_shortest_refuted",
    "C68_throws_refuted"
   ],
   "note": "what a returned value guarantees; the documented minimality is refuted"
  },
  {
   "property": "C69",
   "status": "proved",
   "theorems": [
    "C69_clip"
   ],
   "note": "Exact arithmetic."
  },
  {
   "property": "C70",
   "status": "proved",
   "theorems": [
    "C70_contacts",
    "C70_tolerance"
   ],
   "note": "Exact arithmetic; fuel above |A||B|+3 is enough. Strictly convex counter-clockwise colliders."
  },
  {
   "property": "C71",
   "status": "proved",
   "theorems": [
    "C71_rectangles",
    "C71_any_convex_refuted"
   ],
   "note": "Exact arithmetic; fuel above |A||B|+3 is enough. The general claim for convex polygons is refuted by a witness computed in binary32."
  },
  {
   "property": "C72",
   "status": "proved",
   "theorems": [
    "C72_separate",
    "C72_zero_throws",
    "C72_touching_refuted"
   ],
   "note": "Exact arithmetic; fuel above |A||B|+3 is enough. The cases of tolerance 0 and of touching colliders are shown to throw."
  },
  {
   "property": "C73",
   "status": "proved",
   "theorems": [
    "C73_wakes",
    "C73_stays_awake_refuted"
   ],
   "note": "Exact arithmetic."
  },
  {
   "property": "C74",
   "status": "proved",
   "theorems": [
    "C74_speed",
    "C74_notches",
    "C74_paused",
    "C74_time",
    "C74_notches_refuted",
    "C74_zero_refuted"
   ],
   "note": "speed and pause in binary32 or any arithmetic; notches and times exact; the binary32 failures are the refuted theorems"
  },
  {
   "property": "C75",
   "status": "proved",
   "theorems": [
    "C75_exact",
    "C75_negative_refuted",
    "C75_float",
    "C75_float_refuted",
    "C75_colour"
   ],
   "note": "exact arithmetic and binary32; the binary32 bounds by exhaustive evaluation of all slider positions, then induction on the number of frames"
  },
  {
   "property": "C76",
   "status": "proved",
   "theorems": [
    "C76_pan"
   ],
   "note": "exact arithmetic; the view dimensions are those of the window"
  },
  {
   "property": "C77",
   "status": "proved",
   "theorems": [
    "C77_cursor"
   ],
   "note": "exact arithmetic"
  },
  {
   "property": "C78",
   "status": "proved",
   "theorems": [
    "C78_button",
    "C78_key_refuted"
   ],
   "note": "any arithmetic"
  },
  {
   "property": "C79",
   "status": "proved",
   "theorems": [
    "C79_free",
    "C79_asleep_refuted"
   ],
   "note": "C79_free holds for any number type and any constraint classes; C79_asleep_refuted: a sleeping body keeps drifting."
  },
  {
   "property": "C80",
   "status": "proved",
   "theorems": [
    "C80_behaviour",
    "C80_momentum",
    "C80_centre",
    "C80_joints",
    "C80_flight",
    "C80_flight_behaviour"
   ],
   "note": "Exact arithmetic. C80_behaviour for any constraint classes which exchange momentum, C80_momentum and C80_centre for the library's, C80_joints for each new joint and contact. The sums are over the bodies present after the step. C80_flight is the statement over any number of steps; C80_flight_behaviour says that a step keeps its hypotheses."
  },
  {
   "property": "C81",
   "status": "proved",
   "theorems": [
    "C81_rest",
    "C81_one",
    "C81_two",
    "C81_asked"
   ],
   "note": "Exact arithmetic. The change of the gap is the first-order one; C82 bounds the difference for a point of a moved body. With two points the effective mass must be invertible."
  },
  {
   "property": "C82",
   "status": "proved",
   "theorems": [
    "C82_hinge",
    "C82_weld",
    "C82_rotation",
    "C82_mouse",
    "C82_mouse_velocity",
    "C82_mouse_solvable",
    "C82_rows",
    "C82_singular",
    "C82_inequality"
   ],
   "note": "Exact arithmetic. C82_rows states the first-order equation for any equality constraint with the identity clamp."
  },
  {
   "property": "C83",
   "status": "proved",
   "theorems": [
    "C83_global",
    "C83_region"
   ],
   "note": "Exact arithmetic. Spin is only stated when all colliders of the body are visited."
  },
  {
   "property": "C84",
   "status": "proved",
   "theorems": [
    "C84_height",
    "C84_logarithmic_refuted"
   ],
   "note": "Any Num. C84_logarithmic_refuted is a binary32 witness."
  },
  {
   "property": "C85",
   "status": "proved",
   "theorems": [
    "C85_distance"
   ],
   "note": "Reals. The remaining error is bounded by second-order terms, written out in the statement."
  },
  {
   "property": "C86",
   "status": "proved",
   "theorems": [
    "C86_one_sided"
   ],
   "note": "Reals, one row, no damping."
  },
  {
   "property": "C87",
   "status": "proved",
   "theorems": [
    "C87_scaled",
    "C87_ratio_one_refuted"
   ],
   "note": "Reals; C87_ratio_one_refuted is a binary32 witness."
  },
  {
   "property": "C88",
   "status": "proved",
   "theorems": [
    "C88_attached",
    "C88_some",
    "C88_safe",
    "C88_hidden_undefined",
    "C88_select"
   ],
   "note": "All event histories of App.v."
  },
  {
   "property": "C89",
   "status": "proved",
   "theorems": [
    "C89_frozen",
    "C89_input",
    "C89_frame",
    "C89_camera",
    "C89_tool"
   ],
   "note": "All event histories of App.v; what a tool does with an input it uses is not modelled."
  },
  {
   "property": "C90",
   "status": "proved",
   "theorems": [
    "C90_window",
    "C90_never_sleeps",
    "C90_harmless_refuted"
   ],
   "note": "The harmlessness of the window is refuted with a witness at binary32."
  },
  {
   "property": "C91",
   "status": "proved",
   "theorems": [
    "C91_ground",
    "C91_platform",
    "C91_behaviour",
    "C91_dominance_refuted"
   ],
   "note": "C91_ground: library constraints, any number of steps; C91_platform: one step, for a body that moves or not, in worlds where infinite mass comes with infinite inertia; C91_behaviour: any constraint behaviour which leaves ends of zero inverse mass alone. C91_dominance_refuted: dominance zero is not enough when a constraint is made with other dominances. Over the reals."
  },
  {
   "property": "C92",
   "status": "proved",
   "theorems": [
    "C92_throws",
    "C92_blame"
   ],
   "note": "C92_blame is about the part of the step that looks for contacts; force fields and constraints may throw for their own reasons. Which pairs overlap is reported by the R-tree (C16)."
  },
  {
   "property": "C93",
   "status": "proved",
   "theorems": [
    "C93_least",
    "C93_energy",
    "C93_one_sided",
    "C93_nonneg"
   ],
   "note": "exact arithmetic; two bodies, restitution and damping zero; a constraint with restitution or a bias may add energy on purpose"
  }
 ]
}
