{
 "claims": [
  {
   "property": "C01",
   "status": "proved",
   "theorems": [
    "C01_add_interval_history",
    "C01_add_interval_union"
   ],
   "note": "Every history of add_interval calls, any integer bounds."
  },
  {
   "property": "C02",
   "status": "proved",
   "theorems": [
    "C02_sum_is_union",
    "C02_sum_algebra"
   ],
   "note": "All pairs of canonical patterns."
  },
  {
   "property": "C03",
   "status": "proved",
   "theorems": [
    "C03_detect_columns"
   ],
   "note": "All real matrices of any size."
  },
  {
   "property": "C04",
   "status": "proved",
   "theorems": [
    "C04_variables_tile",
    "C04_variables_disjoint",
    "C04_variables_cover"
   ],
   "note": "Every history of calls, including solves with any back-end."
  },
  {
   "property": "C05",
   "status": "proved",
   "theorems": [
    "C05_variable_expr_slice",
    "C05_variable_expr_defaults",
    "C05_variable_expr_unchecked"
   ],
   "note": "All variables, offsets and sizes; the unchecked overrun is stated as UB."
  },
  {
   "property": "C06",
   "status": "proved",
   "theorems": [
    "C06_sum_of_expressions",
    "C06_difference_of_expressions",
    "C06_scaling",
    "C06_matrix_product",
    "C06_vector_terms",
    "C06_scalar_terms"
   ],
   "note": "All expressions, scalars, vectors, matrices and assignments."
  },
  {
   "property": "C07",
   "status": "proved",
   "theorems": [
    "C07_sum_broadcast_left",
    "C07_sum_broadcast_right",
    "C07_sum_defined_iff_compatible"
   ],
   "note": "All pairs of expressions."
  },
  {
   "property": "C08",
   "status": "partial",
   "theorems": [
    "C08_vector_minus_expression_behaviour",
    "C08_vector_minus_expression_refuted",
    "C08_vector_minus_expression_partial"
   ],
   "note": "vector - expression has the wrong sign: exact behaviour proved, property refuted, partial form for the constant part."
  },
  {
   "property": "C09",
   "status": "partial",
   "theorems": [
    "C09_expression_minus_scalar_refuted",
    "C09_expression_minus_scalar_partial"
   ],
   "note": "expression - double on several rows is refuted (UB); the one-row case is proved."
  },
  {
   "property": "C10",
   "status": "proved",
   "theorems": [
    "C10_product"
   ],
   "note": "All pairs of expressions."
  },
  {
   "property": "C11",
   "status": "proved",
   "theorems": [
    "C11_stack",
    "C11_slice",
    "C11_sum_and_piecewise_add"
   ],
   "note": "All expressions, slices and stacks."
  },
  {
   "property": "C12",
   "status": "partial",
   "theorems": [
    "C12_mean_behaviour",
    "C12_mean_refuted",
    "C12_mean_partial"
   ],
   "note": "mean() divides by the number of columns: exact behaviour and refutation, partial form for square expressions."
  },
  {
   "property": "C13",
   "status": "proved",
   "theorems": [
    "C13_compare_expressions",
    "C13_compare_vectors",
    "C13_compare_scalars",
    "C13_compare_mismatch"
   ],
   "note": "All comparison operators and overloads."
  },
  {
   "property": "C14",
   "status": "proved",
   "theorems": [
    "C14_add_limit",
    "C14_add_limit_mismatch"
   ],
   "note": "All expressions and targets."
  },
  {
   "property": "C15",
   "status": "proved",
   "theorems": [
    "C15_cost",
    "C15_cost_with_slacks"
   ],
   "note": "All problems with use_sparsity off, with or without rewriting, under the QR contract."
  },
  {
   "property": "C16",
   "status": "partial",
   "theorems": [
    "C16_sparsity_refuted",
    "C16_sparsity_partial",
    "C16_rewritten_partial"
   ],
   "note": "use_sparsity drops cross terms between separate column groups: refuted with a witness where the returned optimum is not the user optimum; equality proved for contiguous columns, without elimination and (C16_rewritten_partial) with it."
  },
  {
   "property": "C17",
   "status": "proved",
   "theorems": [
    "C17_inequalities"
   ],
   "note": "All problems, with or without use_sparsity, under the QR contract."
  },
  {
   "property": "C18",
   "status": "proved",
   "theorems": [
    "C18_soft_inequalities",
    "C18_no_penalty_when_satisfied"
   ],
   "note": "All problems with use_sparsity off and non-negative soft weights, under the QR contract."
  },
  {
   "property": "C19",
   "status": "proved",
   "theorems": [
    "C19_elimination"
   ],
   "note": "All problems with rewriting on, under the QR contract."
  },
  {
   "property": "C20",
   "status": "proved",
   "theorems": [
    "C20_optimum",
    "C20_feasible"
   ],
   "note": "Feasibility: all problems. Optimality: use_sparsity off. Under the contracts of the QR and of the QP back-end."
  },
  {
   "property": "C21",
   "status": "proved",
   "theorems": [
    "C21_failed_solve",
    "C21_only_qp_errors",
    "C21_successful_solve"
   ],
   "note": "Every problem and back-end."
  },
  {
   "property": "C22",
   "status": "proved",
   "theorems": [
    "C22_equalities_checked",
    "C22_equalities_rewritten",
    "C22_no_nan"
   ],
   "note": "Every problem and back-end; the rewritten case under the QR contract."
  },
  {
   "property": "C23",
   "status": "proved",
   "theorems": [
    "C23_active_sets"
   ],
   "note": "Every problem and active set."
  },
  {
   "property": "C24",
   "status": "partial",
   "theorems": [
    "C24_ill_formed_behaviour",
    "C24_ill_formed_refuted",
    "C24_ill_formed_partial"
   ],
   "note": "Ill-formed hard equalities are undefined behaviour (exact condition and witness); all other ill-formed constraints throw QPError."
  },
  {
   "property": "C25",
   "status": "proved",
   "theorems": [
    "C25_constructor",
    "C25_constructor_order",
    "C25_expressions_simulate",
    "C25_chain_of_integrators"
   ],
   "note": ""
  },
  {
   "property": "C26",
   "status": "partial",
   "theorems": [
    "C26_safe_requests_refuted",
    "C26_requests_behaviour",
    "C26_safe_requests_partial"
   ],
   "note": "Refuted: expr(N, order) reads the input out of range. The complete table of requests is proved."
  },
  {
   "property": "C27",
   "status": "proved",
   "theorems": [
    "C27_keyframes",
    "C27_inputs",
    "C27_continuous",
    "C27_expr_t_agrees"
   ],
   "note": "For a step dt > 0, at least one step, and a matrix exponential that computes the exponential series."
  },
  {
   "property": "C28",
   "status": "partial",
   "theorems": [
    "C28_duration_behaviour",
    "C28_duration_refuted",
    "C28_duration_partial"
   ],
   "note": "Refuted: duration() is (N+1)*dt; exact value proved."
  },
  {
   "property": "C29",
   "status": "partial",
   "theorems": [
    "C29_last_solve_partial",
    "C29_failed_solve_refuted",
    "C29_start_behaviour"
   ],
   "note": "Proved for histories whose solves succeed (or with a constant initial state) and that leave t_start alone; the two excluded cases are refuted with the exact behaviour."
  },
  {
   "property": "C30",
   "status": "proved",
   "theorems": [
    "C30_derivatives",
    "C30_chain",
    "C30_negative_order"
   ],
   "note": "All orders >= 0; a negative order is shown to be an out-of-range read."
  },
  {
   "property": "C31",
   "status": "proved",
   "theorems": [
    "C31_expression_is_polynom",
    "C31_solution",
    "C31_negative_order"
   ],
   "note": "For every assignment, and at the value stored in the variable."
  },
  {
   "property": "C32",
   "status": "proved",
   "theorems": [
    "C32_margin_is_a_distance",
    "C32_in_polygon_exact",
    "C32_in_polygon",
    "C32_in_polygon_xy",
    "C32_two_rows"
   ],
   "note": "Exact meaning for every polygon, degenerate edges included; the margin is shown to be a Euclidean distance."
  },
  {
   "property": "C33",
   "status": "proved",
   "theorems": [
    "C33_spline",
    "C33_few_points",
    "C33_queries",
    "C33_fit"
   ],
   "note": ""
  },
  {
   "property": "C34",
   "status": "proved",
   "theorems": [
    "C34_rejected",
    "C34_rejected_unchanged",
    "C34_accepted",
    "C34_increasing"
   ],
   "note": ""
  },
  {
   "property": "C35",
   "status": "proved",
   "theorems": [
    "C35_angular",
    "C35_consecutive"
   ],
   "note": ""
  },
  {
   "property": "C36",
   "status": "partial",
   "theorems": [
    "C36_duration_refuted",
    "C36_duration_partial",
    "C36_behaviour"
   ],
   "note": "Refuted: undefined before the first query, stale after later points. Proved right after a query, and the exact behaviour otherwise."
  },
  {
   "property": "C37",
   "status": "proved",
   "theorems": [
    "C37_wrap_angle",
    "C37_unique"
   ],
   "note": "With uniqueness. Signed zeros are not modelled."
  },
  {
   "property": "C38",
   "status": "proved",
   "theorems": [
    "C38_safe_acos"
   ],
   "note": ""
  },
  {
   "property": "C39",
   "status": "proved",
   "theorems": [
    "C39_lambdas",
    "C39_intersects",
    "C39_line_pass_through",
    "C39_lines_intersection",
    "C39_refused",
    "C39_degenerate"
   ],
   "note": "Under the documented tolerance; refusal and the behaviour on segments of length 0 are also characterised."
  },
  {
   "property": "C40",
   "status": "partial",
   "theorems": [
    "C40_behaviour",
    "C40_half_line_refuted"
   ],
   "note": "Refuted: the roles of the two segments are exchanged; exact behaviour proved."
  },
  {
   "property": "C41",
   "status": "proved",
   "theorems": [
    "C41_rows",
    "C41_invalid"
   ],
   "note": ""
  },
  {
   "property": "C42",
   "status": "partial",
   "theorems": [
    "C42_unchanged_refuted",
    "C42_unchanged_partial",
    "C42_behaviour"
   ],
   "note": "Refuted: a rejected call empties the mask, or changes the name; what is preserved is proved, and the exact state left behind."
  },
  {
   "property": "C43",
   "status": "proved",
   "theorems": [
    "C43_flatten",
    "C43_idempotent",
    "C43_planar",
    "C43_equivariant",
    "C43_vertical"
   ],
   "note": ""
  },
  {
   "property": "C44",
   "status": "proved",
   "theorems": [
    "C44_ends",
    "C44_translation"
   ],
   "note": ""
  },
  {
   "property": "C45",
   "status": "proved",
   "theorems": [
    "C45_clip",
    "C45_idempotent",
    "C45_zero_limit"
   ],
   "note": "Including the non-finite result for a null limit (C45_zero_limit)."
  },
  {
   "property": "C46",
   "status": "proved",
   "theorems": [
    "C46_opposite_frame",
    "C46_neutral_frame"
   ],
   "note": ""
  },
  {
   "property": "C47",
   "status": "proved",
   "theorems": [
    "C47_polygon",
    "C47_contains"
   ],
   "note": ""
  },
  {
   "property": "C48",
   "status": "partial",
   "theorems": [
    "C48_refuted",
    "C48_behaviour",
    "C48_partial"
   ],
   "note": "Refuted: opposite_footstep copies a cached polygon; exact behaviour, and the property for histories without frame assignment after a query."
  },
  {
   "property": "C49",
   "status": "partial",
   "theorems": [
    "C49_refuted",
    "C49_partial"
   ],
   "note": "Refuted for crossing soles; overlap implies intersection, and non-crossing cases."
  },
  {
   "property": "C50",
   "status": "proved",
   "theorems": [
    "C50_clipped_opposite_footstep",
    "C50_no_collision"
   ],
   "note": ""
  },
  {
   "property": "C51",
   "status": "proved",
   "theorems": [
    "C51_make_supports",
    "C51_short"
   ],
   "note": "Short lists in C51_short (undefined behaviour for end with fewer than two footsteps)."
  },
  {
   "property": "C52",
   "status": "proved",
   "theorems": [
    "C52_repetitive_plan"
   ],
   "note": ""
  },
  {
   "property": "C53",
   "status": "proved",
   "theorems": [
    "C53_naive_plan"
   ],
   "note": ""
  },
  {
   "property": "C54",
   "status": "proved",
   "theorems": [
    "C54_terminates",
    "C54_empty",
    "C54_right_part",
    "C54_inside"
   ],
   "note": "Every trajectory with at least one part; without parts every query throws."
  },
  {
   "property": "C55",
   "status": "proved",
   "theorems": [
    "C55_plan",
    "C55_replan",
    "C55_no_support"
   ],
   "note": "plan and successful replan, all lists of supports, what remains of the support included (elapsed and time ratios)."
  },
  {
   "property": "C56",
   "status": "partial",
   "theorems": [
    "C56_prev_support_behaviour",
    "C56_getters_refuted",
    "C56_prev_support_partial"
   ],
   "note": "Refuted: get_prev_support overwrites the current part (C56_getters_refuted, exact effect in C56_prev_support_behaviour). The other getters are const and modelled as functions."
  },
  {
   "property": "C57",
   "status": "partial",
   "theorems": [
    "C57_foot_velocity_behaviour",
    "C57_foot_velocity_refuted",
    "C57_foot_velocity_partial"
   ],
   "note": "Refuted: throws in double support (C57_foot_velocity_refuted); exact behaviour in every part."
  },
  {
   "property": "C58",
   "status": "partial",
   "theorems": [
    "C58_make_partial",
    "C58_vertical_velocity",
    "C58_zero_landing_velocity_refuted",
    "C58_remake",
    "C58_remakes",
    "C58_remake_height_refuted"
   ],
   "note": "Refuted for the vertical velocity (C58_zero_landing_velocity_refuted, exact values in C58_vertical_velocity) and for the height of a new target (C58_remake_height_refuted). Everything else is proved. M.inverse() is an input with contract inverse_correct."
  },
  {
   "property": "C59",
   "status": "proved",
   "theorems": [
    "C59_success",
    "C59_over",
    "C59_trajectory"
   ],
   "note": "On top of the cubic spline model."
  },
  {
   "property": "C60",
   "status": "partial",
   "theorems": [
    "C60_construct",
    "C60_expressions",
    "C60_trajectory",
    "C60_pendulum",
    "C60_agreement_partial",
    "C60_junction",
    "C60_omega",
    "C60_dzmp_behaviour",
    "C60_dzmp_refuted"
   ],
   "note": "Refuted for Trajectory::dzmp (C60_dzmp_refuted, exact value in C60_dzmp_behaviour): vel + jerk/omega^2 where the expression and the derivative of the zmp are vel - jerk/omega^2. Everything else is proved."
  },
  {
   "property": "C61",
   "status": "proved",
   "theorems": [
    "C61_queries",
    "C61_mean"
   ],
   "note": ""
  },
  {
   "property": "C62",
   "status": "partial",
   "theorems": [
    "C62_built_in_tasks_are_sound",
    "C62_masks",
    "C62_mask_dof",
    "C62_unmask_dof",
    "C62_joint_limits_partial",
    "C62_velocity_limits",
    "C62_continuous_joint_refuted",
    "C62_continuous_joint_stuck_refuted"
   ],
   "note": "Masks, velocity limits, and the limits of joints with one number in q proved; refuted for robots with continuous joints (C62_continuous_joint_refuted), where the limits of one joint are enforced on another."
  },
  {
   "property": "C63",
   "status": "proved",
   "theorems": [
    "C63_hard_tasks",
    "C63_scaled_tasks",
    "C63_stale_scale_behaviour"
   ],
   "note": "solver.scale is the common factor when a scaled task has rows; otherwise it keeps the value of an earlier solve (C63_stale_scale_behaviour)."
  },
  {
   "property": "C64",
   "status": "proved",
   "theorems": [
    "C64_failure",
    "C64_no_apply",
    "C64_applied"
   ],
   "note": "Every failure that is not undefined behaviour."
  },
  {
   "property": "C65",
   "status": "partial",
   "theorems": [
    "C65_set_joint",
    "C65_joints_exact",
    "C65_hard_joints",
    "C65_add_gear",
    "C65_set_gear",
    "C65_gears_behaviour",
    "C65_hard_gears_partial",
    "C65_self_gear_refuted"
   ],
   "note": "Joints tasks and gears whose target is not its own source proved; set_gear and add_gear exact; a joint geared to itself refuted (C65_self_gear_refuted)."
  },
  {
   "property": "C66",
   "status": "partial",
   "theorems": [
    "C66_kinematics",
    "C66_kinematics_destroyed",
    "C66_dynamics_partial",
    "C66_dynamics_remove_behaviour",
    "C66_dynamics_remove_refuted",
    "C66_dynamics_contact_refuted",
    "C66_contact_without_task_behaviour"
   ],
   "note": "Kinematics solver: proved for every careful history. Dynamics solver: refuted (remove_task deletes tasks of the user; a contact of the solver added again is deleted twice); proved for histories without these two calls."
  },
  {
   "property": "C67",
   "status": "partial",
   "theorems": [
    "C67_sizes",
    "C67_behaviour",
    "C67_equation_partial",
    "C67_damping_refuted"
   ],
   "note": "Proved without damping (the default), for any tasks, contacts and constraints; refuted when damping is set: the term damping*qd is not in the documented equation. The exact equation is C67_behaviour."
  },
  {
   "property": "C68",
   "status": "proved",
   "theorems": [
    "C68_set_qdd_safe",
    "C68_default_safe",
    "C68_other_dofs_behaviour",
    "C68_limits",
    "C68_velocity_vs_torque",
    "C68_braking",
    "C68_one_step",
    "C68_set_torque_limit"
   ],
   "note": "Under the contracts of the QR and of the QP. Includes set_torque_limit, the braking distance and one-step safety."
  },
  {
   "property": "C69",
   "status": "proved",
   "theorems": [
    "C69_valid",
    "C69_friction",
    "C69_zmp"
   ],
   "note": "Under the contracts of the QR and of the QP."
  },
  {
   "property": "C70",
   "status": "partial",
   "theorems": [
    "C70_point_partial",
    "C70_planar_behaviour",
    "C70_planar_refuted"
   ],
   "note": "Point contacts: proved. Planar contacts: refuted (the y tangential force and the normal force are penalised, not x and y)."
  },
  {
   "property": "C71",
   "status": "partial",
   "theorems": [
    "C71_line_behaviour",
    "C71_line_refuted",
    "C71_zmp_behaviour",
    "C71_zmp_refuted",
    "C71_bilateral_partial"
   ],
   "note": "Refuted: a unilateral line contact with a length makes the solve undefined; zmp() reads the moment around z. Bilateral line contacts can be used."
  },
  {
   "property": "C72",
   "status": "proved",
   "theorems": [
    "C72_failure",
    "C72_zero_period",
    "C72_integrated"
   ],
   "note": "All failure points; and what integration does on success."
  },
  {
   "property": "C73",
   "status": "partial",
   "theorems": [
    "C73_relative_position_behaviour",
    "C73_relative_position_partial",
    "C73_relative_orientation_behaviour",
    "C73_relative_orientation_partial",
    "C73_relative_orientation_refuted",
    "C73_set_gains",
    "C73_gains_used",
    "C73_satisfied",
    "C73_position",
    "C73_com",
    "C73_all_axes",
    "C73_orientation",
    "C73_joints",
    "C73_gear_partial",
    "C73_critical",
    "C73_self_gear_refuted",
    "C73_relative_position_refuted"
   ],
   "note": "Positions, CoM, orientations (angular acceleration), joints, gears, critical damping: proved, under the contracts of the Jacobians. Refuted: gears whose target is its own source, relative positions in a frame that turns, and relative orientations; for these last two, what they do in all the cases and the cases where the claim holds are proved (C73_relative_position_behaviour, _partial, C73_relative_orientation_behaviour, _partial)."
  },
  {
   "property": "C74",
   "status": "proved",
   "theorems": [
    "C74_stale_behaviour",
    "C74_place_by_frame",
    "C74_base",
    "C74_universe_refuted"
   ],
   "note": "Under the contract of the forward kinematics, for the frames carried by the robot; with stale kinematics the exact result is C74_stale_behaviour; the frame universe is accepted and not placed (C74_universe_refuted)."
  },
  {
   "property": "C75",
   "status": "partial",
   "theorems": [
    "C75_history",
    "C75_only_one_entry",
    "C75_unknown_partial",
    "C75_unknown_refuted"
   ],
   "note": "Every history of writes on known joints. Refuted for unknown names: accessors of velocities, accelerations, velocity and torque limits, rotor inertias and gear ratios do not check the name (C75_unknown_refuted); those of q and its limits throw (C75_unknown_partial)."
  },
  {
   "property": "C76",
   "status": "proved",
   "theorems": [
    "C76_static_gravity"
   ],
   "note": "Under the contract of the inverse."
  },
  {
   "property": "C77",
   "status": "partial",
   "theorems": [
    "C77_behaviour",
    "C77_refuted",
    "C77_trunk_and_com_partial",
    "C77_after_mode_change_behaviour"
   ],
   "note": "Refuted in every reachable state: the position errors overwrite the orientation errors and the position keys are missing. Trunk and CoM keys proved."
  },
  {
   "property": "C78",
   "status": "proved",
   "theorems": [
    "C78_defined",
    "C78_one_of_two",
    "C78_follows_the_mode",
    "C78_removed",
    "C78_cleared_behaviour"
   ],
   "note": "Every history of the walk calls mixed with careful use of the solver."
  },
  {
   "property": "C79",
   "status": "proved",
   "theorems": [
    "C79_round_trip",
    "C79_names",
    "C79_problem_constraints"
   ],
   "note": "Including the different treatment of strings by problem constraints."
  },
  {
   "property": "C80",
   "status": "partial",
   "theorems": [
    "C80_directions_2d",
    "C80_directions_3d_partial",
    "C80_directions_3d_refuted"
   ],
   "note": "2d proved for every n. 3d proved for epsilon >= 0 and n - 1 + 2 epsilon > 0 (the default epsilon included) and refuted outside."
  },
  {
   "property": "C81",
   "status": "partial",
   "theorems": [
    "C81_duplicate_equality_behaviour",
    "C81_redundant_equalities_refuted",
    "C81_dependent_equalities_behaviour",
    "C81_success_means_independent",
    "C81_independent_equalities_partial"
   ],
   "note": "Refuted, and the exact behaviour proved: linearly dependent hard equalities are always refused; independent ones pass."
  },
  {
   "property": "C82",
   "status": "partial",
   "theorems": [
    "C82_options_behaviour",
    "C82_options_refuted",
    "C82_options_partial"
   ],
   "note": "Refuted for rewriting off with hard equalities and soft inequalities; all other combinations proved."
  },
  {
   "property": "C83",
   "status": "proved",
   "theorems": [
    "C83_feasible_problems_are_solved",
    "C83_external_contracts_can_be_met"
   ],
   "note": "Every reachable problem, with or without use_sparsity; contracts of the external algorithms explicit."
  },
  {
   "property": "C84",
   "status": "proved",
   "theorems": [
    "C84_configure"
   ],
   "note": ""
  },
  {
   "property": "C85",
   "status": "proved",
   "theorems": [
    "C85_differential_equation"
   ],
   "note": ""
  },
  {
   "property": "C86",
   "status": "proved",
   "theorems": [
    "C86_derivatives",
    "C86_taylor"
   ],
   "note": ""
  },
  {
   "property": "C87",
   "status": "partial",
   "theorems": [
    "C87_expr_t_behaviour",
    "C87_expr_t_checks_refuted",
    "C87_expr_t_checks_partial"
   ],
   "note": "Refuted: diff > order is an out-of-range block read and diff < -1 is taken for -1; exact behaviour at every time proved."
  },
  {
   "property": "C88",
   "status": "partial",
   "theorems": [
    "C88_int_coefficients_partial",
    "C88_int_coefficients_refuted"
   ],
   "note": "Proved up to degree 12; refuted at degree 13 (13! overflows)."
  },
  {
   "property": "C89",
   "status": "proved",
   "theorems": [
    "C89_points_of_the_segment",
    "C89_accepted_points"
   ],
   "note": ""
  },
  {
   "property": "C90",
   "status": "proved",
   "theorems": [
    "C90_parallel"
   ],
   "note": ""
  },
  {
   "property": "C91",
   "status": "partial",
   "theorems": [
    "C91_derivatives_refuted",
    "C91_derivatives_partial"
   ],
   "note": "Refuted outside the range of the points and for a single point; proved inside."
  },
  {
   "property": "C92",
   "status": "proved",
   "theorems": [
    "C92_components",
    "C92_add_point",
    "C92_queries",
    "C92_duration"
   ],
   "note": ""
  },
  {
   "property": "C93",
   "status": "partial",
   "theorems": [
    "C93_rotation_refuted",
    "C93_rotation_partial",
    "C93_condition",
    "C93_rotation_almost"
   ],
   "note": "Refuted for almost equal orientations (unnormalised average); exact elsewhere; deviation bounded by 4*2^-52 for ratios in [0,1]."
  },
  {
   "property": "C94",
   "status": "partial",
   "theorems": [
    "C94_constant_rate_partial",
    "C94_rate_partial",
    "C94_near_behaviour",
    "C94_refuted"
   ],
   "note": "Proved when the orientations differ by more than 2*acos(1-2^-52). Below, the code averages the quaternions without normalising: C94_refuted, and C94_near_behaviour for the exact trace and its distance to the right one."
  },
  {
   "property": "C95",
   "status": "proved",
   "theorems": [
    "C95_rotation_from_axis",
    "C95_axes"
   ],
   "note": "pinocchio::exp3 is taken as the exact exponential."
  },
  {
   "property": "C96",
   "status": "proved",
   "theorems": [
    "C96_optimal",
    "C96_exact",
    "C96_refused"
   ],
   "note": "Under the contract of the SVD."
  },
  {
   "property": "C97",
   "status": "proved",
   "theorems": [
    "C97_durations",
    "C97_has_double_support"
   ],
   "note": ""
  },
  {
   "property": "C98",
   "status": "proved",
   "theorems": [
    "C98_overlap_clip"
   ],
   "note": ""
  },
  {
   "property": "C99",
   "status": "partial",
   "theorems": [
    "C99_refuted",
    "C99_partial",
    "C99_exact"
   ],
   "note": "Refuted; the last two steps go towards the targets within the window and are exact when allowed."
  },
  {
   "property": "C100",
   "status": "proved",
   "theorems": [
    "C100_transform",
    "C100_offset"
   ],
   "note": ""
  },
  {
   "property": "C101",
   "status": "proved",
   "theorems": [
    "C101_repetitive",
    "C101_naive"
   ],
   "note": ""
  },
  {
   "property": "C102",
   "status": "partial",
   "theorems": [
    "C102_plain",
    "C102_truncated",
    "C102_refuted"
   ],
   "note": "Undefined behaviour at index 0 and at the size of the walk; proved for all the indices in between."
  },
  {
   "property": "C103",
   "status": "partial",
   "theorems": [
    "C103_sizes_refuted",
    "C103_without_checks_partial"
   ],
   "note": "With Eigen's assertions the function always stops (C103_sizes_refuted). Without them the documented trajectory is made whatever the uninitialised memory holds."
  },
  {
   "property": "C104",
   "status": "proved",
   "theorems": [
    "C104_world",
    "C104_dcm_zmp",
    "C104_yaw",
    "C104_support",
    "C104_target_dcm_behaviour"
   ],
   "note": "The unmoved target DCM is stated in C104_target_dcm_behaviour."
  },
  {
   "property": "C105",
   "status": "proved",
   "theorems": [
    "C105_plan",
    "C105_replan"
   ],
   "note": "Under the contract of the matrix exponential, for omega^2 <> 0 and supports of positive durations."
  },
  {
   "property": "C106",
   "status": "proved",
   "theorems": [
    "C106_zmp"
   ],
   "note": "Under the contracts of the QR, of the QP back-end and of the matrix exponential; soft mode excluded."
  },
  {
   "property": "C107",
   "status": "proved",
   "theorems": [
    "C107_joint_names",
    "C107_set_velocity_limits"
   ],
   "note": ""
  },
  {
   "property": "C108",
   "status": "proved",
   "theorems": [
    "C108_relative_position_jacobian",
    "C108_get_T_a_b"
   ],
   "note": "Under the contract of the frame Jacobians."
  },
  {
   "property": "C109",
   "status": "partial",
   "theorems": [
    "C109_behaviour",
    "C109_equation_partial",
    "C109_equation_refuted"
   ],
   "note": "Refuted (C109_equation_refuted); exact result in C109_behaviour; holds when the base is not pushed (C109_equation_partial)."
  },
  {
   "property": "C110",
   "status": "proved",
   "theorems": [
    "C110_mass_matrix",
    "C110_kinetic_energy"
   ],
   "note": "Under the contract of crba."
  },
  {
   "property": "C111",
   "status": "proved",
   "theorems": [
    "C111_add_q_noise",
    "C111_undefined_limits"
   ],
   "note": "Random configurations are within the limits."
  },
  {
   "property": "C112",
   "status": "partial",
   "theorems": [
    "C112_by_name",
    "C112_joint_time_variation_refuted"
   ],
   "note": "Refuted for joint_jacobian_time_variation (C112_joint_time_variation_refuted)."
  },
  {
   "property": "C113",
   "status": "proved",
   "theorems": [
    "C113_integrate"
   ],
   "note": "Under the contract of pinocchio::integrate on joints with one degree of freedom."
  },
  {
   "property": "C114",
   "status": "proved",
   "theorems": [
    "C114_answer_is_unique"
   ],
   "note": "use_sparsity off (see C16). The contracts of the back-ends are shown to be satisfiable by algorithms that never fail (C83_external_contracts_can_be_met)."
  },
  {
   "property": "C115",
   "status": "proved",
   "theorems": [
    "C115_optimum"
   ],
   "note": "use_sparsity off (see C16)."
  },
  {
   "property": "C116",
   "status": "proved",
   "theorems": [
    "C116_same_request"
   ],
   "note": "Positive regularization, use_sparsity off."
  },
  {
   "property": "C117",
   "status": "proved",
   "theorems": [
    "C117_incompatible_requests"
   ],
   "note": "Every incompatible request whose tasks can be evaluated."
  },
  {
   "property": "C118",
   "status": "proved",
   "theorems": [
    "C118_ends",
    "C118_apply",
    "C118_compatible_requests"
   ],
   "note": "Contracts of the back-ends as hypotheses; they can be met (perfect_qr, perfect_qp)."
  },
  {
   "property": "C119",
   "status": "partial",
   "theorems": [
    "C119_redundant_requests_behaviour",
    "C119_base_masked_twice_behaviour",
    "C119_masked_and_asked_behaviour",
    "C119_redundant_requests_refuted",
    "C119_independent_requests_partial"
   ],
   "note": "Refuted: redundant hard requests are always refused; independent ones are answered."
  },
  {
   "property": "C120",
   "status": "partial",
   "theorems": [
    "C120_base_only_behaviour",
    "C120_base_only_refuted",
    "C120_no_limits_partial"
   ],
   "note": "Refuted with the default joint limits; holds once the limits are disabled."
  },
  {
   "property": "C121",
   "status": "proved",
   "theorems": [
    "C121_targets"
   ],
   "note": "Every reachable state."
  },
  {
   "property": "C122",
   "status": "partial",
   "theorems": [
    "C122_integral_bounded",
    "C122_zero_gains",
    "C122_offset",
    "C122_uninitialised_behaviour",
    "C122_determined_refuted"
   ],
   "note": "Boundedness and zero gains proved; dependence on the inputs only is refuted: integral and last_error are not initialised."
  },
  {
   "property": "C123",
   "status": "proved",
   "theorems": [
    "C123_initial_pose",
    "C123_asked"
   ],
   "note": "The targets; the convergence of the hundred solves on a randomly perturbed robot is not modelled."
  },
  {
   "property": "C124",
   "status": "proved",
   "theorems": [
    "C124_optimal"
   ],
   "note": "Under the contracts of the QR and of the QP."
  },
  {
   "property": "C125",
   "status": "partial",
   "theorems": [
    "C125_no_joints_behaviour",
    "C125_no_joints_refuted"
   ],
   "note": "Refuted with a body in free fall; the exact behaviour (always a failure) is proved for every such robot."
  },
  {
   "property": "C126",
   "status": "proved",
   "theorems": [
    "C126_world",
    "C126_local",
    "C126_unknown",
    "C126_applied"
   ],
   "note": "Under the contracts of the QR and of the QP."
  },
  {
   "property": "C127",
   "status": "proved",
   "theorems": [
    "C127_torques",
    "C127_set_torque",
    "C127_reset_torque"
   ],
   "note": "Under the contracts of the QR and of the QP. The sign of the kp term is the one of the code: torque + kp*q - kd*qd."
  },
  {
   "property": "C128",
   "status": "partial",
   "theorems": [
    "C128_set_gear_behaviour",
    "C128_set_gear_partial",
    "C128_set_gear_refuted"
   ],
   "note": "Refuted: set_gear of the dynamics task removes the gears of every target. Its exact behaviour is proved."
  },
  {
   "property": "C129",
   "status": "proved",
   "theorems": [
    "C129_succeeds",
    "C129_infeasible"
   ],
   "note": "Under the contracts of the QR and of the QP, whose own failures are the only exceptions."
  },
  {
   "property": "C130",
   "status": "proved",
   "theorems": [
    "C130_imposed",
    "C130_soft",
    "C130_position"
   ],
   "note": "Under the contracts of the Jacobians (they give the velocities of the frames and of the center of mass) and of the QR and QP."
  },
  {
   "property": "C131",
   "status": "partial",
   "theorems": [
    "C131_orientation",
    "C131_reached",
    "C131_relative_orientation",
    "C131_axis_align_partial",
    "C131_axis_aligned_behaviour",
    "C131_axis_align_refuted"
   ],
   "note": "Orientations and relative orientations: proved, for any logarithm that exp3 inverts. Axis align: proved when the axis is neither aligned with nor opposed to its target; when it is, the behaviour (matrix not finite) is proved, and a reachable state shows it."
  },
  {
   "property": "C132",
   "status": "proved",
   "theorems": [
    "C132_hard",
    "C132_soft",
    "C132_hard_free",
    "C132_half_spaces"
   ],
   "note": "Under the contracts of the Jacobians of the frames, the joints and the center of mass, of the integration (half-spaces) and of the QR and QP. The pairs of closest points of hpp-fcl are an argument. For the yaw and cone constraints see C135 and C136."
  },
  {
   "property": "C133",
   "status": "proved",
   "theorems": [
    "C133_regularization",
    "C133_weights",
    "C133_kinetic",
    "C133_momentum",
    "C133_momentum_soft"
   ],
   "note": "For the degrees of freedom of the joints: the base is not regularized. Under the contracts of the matrix square root and of the QR and QP; the mass matrix and the centroidal map are those of pinocchio. The manipulability task is not modelled."
  },
  {
   "property": "C134",
   "status": "proved",
   "theorems": [
    "C134_no_slip",
    "C134_rolling",
    "C134_soft"
   ],
   "note": "Under the contract of the Jacobian of the joint in its frame. When the axis of the wheel is the vertical of the surface there is no lowest point, and nothing is claimed."
  },
  {
   "property": "C135",
   "status": "partial",
   "theorems": [
    "C135_behaviour",
    "C135_level_partial",
    "C135_soft",
    "C135_refuted"
   ],
   "note": "Proved when the x axis of b is in the plane (x, y) of a; what is done otherwise (the derivative of the yaw is multiplied by the norm of the projection of the x axis) is C135_behaviour, and the claim is then refuted (C135_refuted). Missing: that case."
  },
  {
   "property": "C136",
   "status": "partial",
   "theorems": [
    "C136_behaviour",
    "C136_partial",
    "C136_odd_refuted",
    "C136_aligned_refuted",
    "C136_kept_partial"
   ],
   "note": "Proved for an even number of slices and axes that are not parallel. Refuted for an odd number of slices and for aligned axes (only the motion towards one direction is limited). C136_behaviour says what each slice imposes in all the cases."
  },
  {
   "property": "C137",
   "status": "partial",
   "theorems": [
    "C137_brakes",
    "C137_behaviour",
    "C137_pushes_partial",
    "C137_soft",
    "C137_pushes_refuted"
   ],
   "note": "Braking outside the margin and the cost of soft constraints: proved (C137_brakes, C137_soft), with the closest points and the direction held fixed on the bodies. Pushing inside the margin: proved for a robot at rest (C137_pushes_partial), what is done in all the cases is C137_behaviour, and the claim is refuted for a moving robot because the bias of the opening is ignored (C137_pushes_refuted). Missing: that the closest points move along the bodies."
  },
  {
   "property": "C138",
   "status": "proved",
   "theorems": [
    "C138_on_floor",
    "C138_history",
    "C138_switch",
    "C138_same_support",
    "C138_stale_behaviour",
    "C138_new",
    "C138_missing"
   ],
   "note": "frames_correct is the contract of the placements of pinocchio. What happens when the data is not up to date is C138_stale_behaviour."
  },
  {
   "property": "C139",
   "status": "proved",
   "theorems": [
    "C139_imu",
    "C139_same_orientation"
   ],
   "note": ""
  },
  {
   "property": "C140",
   "status": "proved",
   "theorems": [
    "C140_torques",
    "C140_power"
   ],
   "note": "The inverse of Eigen is an argument with a contract; the mass matrix has an invertible base block."
  },
  {
   "property": "C141",
   "status": "partial",
   "theorems": [
    "C141_com_velocity_partial",
    "C141_other_robots_refuted",
    "C141_support_behaviour",
    "C141_support_refuted"
   ],
   "note": "Proved for 26 degrees of freedom and the support of the robot (C141_com_velocity_partial). Refuted for the others: with another number of degrees of freedom the blocks do not fit (C141_other_robots_refuted), and the argument support is not used (C141_support_behaviour, C141_support_refuted)."
  },
  {
   "property": "C142",
   "status": "partial",
   "theorems": [
    "C142_camera_behaviour",
    "C142_camera_partial",
    "C142_camera_refuted",
    "C142_measured"
   ],
   "note": "Proved when the pan and tilt axes meet (C142_camera_partial), with what the call does in all cases (C142_camera_behaviour, C142_measured). Refuted when they do not: the camera then never has the target on its axis (C142_camera_refuted)."
  },
  {
   "property": "C143",
   "status": "proved",
   "theorems": [
    "C143_dcm_zmp",
    "C143_capture"
   ],
   "note": ""
  },
  {
   "property": "C144",
   "status": "proved",
   "theorems": [
    "C144_next_step",
    "C144_reset",
    "C144_new",
    "C144_rise_ratio",
    "C144_history",
    "C144_total"
   ],
   "note": ""
  },
  {
   "property": "C145",
   "status": "proved",
   "theorems": [
    "C145_height",
    "C145_update",
    "C145_trunk",
    "C145_handover"
   ],
   "note": ""
  },
  {
   "property": "C146",
   "status": "partial",
   "theorems": [
    "C146_feet",
    "C146_robot_partial",
    "C146_stale_behaviour",
    "C146_robot_refuted"
   ],
   "note": "The walk is moved as stated (C146_feet). For the robot the statement is false: after update(), whose last call is solver.solve(true), the placements of the robot are those of before the last step of the inverse kinematics, so that its foot is not put where the walk's is (C146_robot_refuted). Proved when the data is up to date (C146_robot_partial), and what happens otherwise (C146_stale_behaviour)."
  },
  {
   "property": "C147",
   "status": "proved",
   "theorems": [
    "C147_cost",
    "C147_penalty",
    "C147_step",
    "C147_singular",
    "C147_types",
    "C147_defined"
   ],
   "note": ""
  },
  {
   "property": "C148",
   "status": "partial",
   "theorems": [
    "C148_loads",
    "C148_pairs",
    "C148_kept_refuted",
    "C148_failure_behaviour",
    "C148_all_pairs"
   ],
   "note": "A failing load loses the previous pairs: they are removed before the file is opened (C148_kept_refuted, C148_failure_behaviour). The rest is proved."
  },
  {
   "property": "C149",
   "status": "proved",
   "theorems": [
    "C149_collisions",
    "C149_stop",
    "C149_distances"
   ],
   "note": ""
  },
  {
   "property": "C150",
   "status": "proved",
   "theorems": [
    "C150_new",
    "C150_fails"
   ],
   "note": ""
  },
  {
   "property": "C151",
   "status": "proved",
   "theorems": [
    "C151_planned_exactly_when_possible",
    "C151_possible_without_stop"
   ],
   "note": ""
  },
  {
   "property": "C152",
   "status": "proved",
   "theorems": [
    "C152_feet"
   ],
   "note": ""
  },
  {
   "property": "C153",
   "status": "proved",
   "theorems": [
    "C153_feet"
   ],
   "note": ""
  },
  {
   "property": "C154",
   "status": "proved",
   "theorems": [
    "C154_replanned_exactly_when_possible",
    "C154_readable"
   ],
   "note": ""
  },
  {
   "property": "C155",
   "status": "proved",
   "theorems": [
    "C155_goes_on",
    "C155_clocked",
    "C155_over_behaviour"
   ],
   "note": "C155_over_behaviour describes a failed replan after the end of the old walk: an empty walk."
  },
  {
   "property": "C156",
   "status": "proved",
   "theorems": [
    "C156_supports_of_footsteps"
   ],
   "note": ""
  },
  {
   "property": "C157",
   "status": "partial",
   "theorems": [
    "C157_supports",
    "C157_same_landing",
    "C157_again",
    "C157_repetitive",
    "C157_naive",
    "C157_double_t_start_behaviour",
    "C157_no_step_behaviour",
    "C157_refuted"
   ],
   "note": "Proved when the planner makes at least one more step. C157_refuted: with no more step (nb_steps = 0), the flying foot jumps to the ground. C157_double_t_start_behaviour: the double support that follows the current step gets the t_start of the current step."
  },
  {
   "property": "C158",
   "status": "proved",
   "theorems": [
    "C158_optimal_zmp",
    "C158_one_best",
    "C158_close_to_ideal"
   ],
   "note": "The dynamics is stated as a differential equation. The contracts of the back-ends are shown to be satisfiable."
  },
  {
   "property": "C159",
   "status": "partial",
   "theorems": [
    "C159_double_support_refused",
    "C159_step_adapted",
    "C159_best_step_partial"
   ],
   "note": "Success, the changes and the possible steps are proved for all inputs. The optimality of the step is proved under a condition on the columns of the reduced objective (see C16), which an example meets; without it use_sparsity may drop terms of the objective."
  },
  {
   "property": "C160",
   "status": "partial",
   "theorems": [
    "C160_kept_polygon_behaviour",
    "C160_polygon_partial",
    "C160_polygon_refuted"
   ],
   "note": "Refuted by a witness: polygons already computed are kept. Proved for supports whose polygons were never read."
  },
  {
   "property": "C161",
   "status": "partial",
   "theorems": [
    "C161_standing_foot_partial",
    "C161_first_foot_behaviour",
    "C161_standing_foot_refuted"
   ],
   "note": "Refuted by a witness made by make_supports with double supports: the standing foot is moved. Proved when the first footstep of the next support is of the other foot."
  },
  {
   "property": "C162",
   "status": "partial",
   "theorems": [
    "C162_mirrored_zone_partial",
    "C162_mirrored_zone_refuted",
    "C162_backward_behaviour"
   ],
   "note": "Refuted by a witness: the zone is turned, not mirrored. Proved for the zones symmetric in x."
  },
  {
   "property": "C163",
   "status": "proved",
   "theorems": [
    "C163_safe",
    "C163_independent",
    "C163_followed"
   ],
   "note": "Eigen's Transform::rotation() (a decomposition in singular values) is an oracle with the contract that it gives back a rotation."
  },
  {
   "property": "C164",
   "status": "proved",
   "theorems": [
    "C164_complete",
    "C164_replay"
   ],
   "note": "rhoban_utils' histories are two functions: the number and the angle of a name at a time, partial as the library throws for names that it does not have."
  },
  {
   "property": "C165",
   "status": "partial",
   "theorems": [
    "C165_velocity_partial",
    "C165_single_refuted"
   ],
   "note": "Holds for velocities of more than one number; C165_single_refuted: those of a robot with a single joint are ignored, though the documentation says \"if not empty\"."
  },
  {
   "property": "C166",
   "status": "partial",
   "theorems": [
    "C166_comparison",
    "C166_ignored",
    "C166_times_ignored",
    "C166_equal",
    "C166_different",
    "C166_transitive_refuted"
   ],
   "note": "All but transitivity, which is refuted."
  },
  {
   "property": "C167",
   "status": "partial",
   "theorems": [
    "C167_kick_behaviour",
    "C167_kick_refuted",
    "C167_kick_partial"
   ],
   "note": "Refuted: the trajectory is null. The partial theorem has the start and the target at the origin."
  },
  {
   "property": "C168",
   "status": "partial",
   "theorems": [
    "C168_references",
    "C168_destroyed",
    "C168_copy_behaviour",
    "C168_copy_refuted"
   ],
   "note": "All but copies: C168_copy_refuted, a copy of a Problem (or a solver that holds one) shares its variables and constraints, and deletes them."
  },
  {
   "property": "C169",
   "status": "partial",
   "theorems": [
    "C169_solver_behaviour",
    "C169_next_call_behaviour",
    "C169_null_behaviour",
    "C169_solver_refuted"
   ],
   "note": "Refuted; the exact behaviour is proved instead: the tasks are deleted, and any next call on the walk tasks reads freed memory."
  },
  {
   "property": "C170",
   "status": "partial",
   "theorems": [
    "C170_durable_partial",
    "C170_internal",
    "C170_temporary_argument_behaviour",
    "C170_refuted",
    "C170_frame_task_refuted",
    "C170_api_behaviour"
   ],
   "note": "Proved for programs that keep by name what they passed to constructors by reference, and for programs that only use owner and child objects; refuted in general. C170_api_behaviour says, call by call, what must stay alive for the result to be usable."
  },
  {
   "property": "C171",
   "status": "partial",
   "theorems": [
    "C171_attributes_partial",
    "C171_read_only",
    "C171_segment_end_behaviour",
    "C171_segment_end_refuted",
    "C171_line_contact_behaviour",
    "C171_line_contact_refuted"
   ],
   "note": "Proved for all attributes but two: Segment.end (its setter writes the start) and LineContact.R_world_surface (its accessors take a PointContact)."
  },
  {
   "property": "C172",
   "status": "proved",
   "theorems": [
    "C172_static",
    "C172_fixed_frame",
    "C172_at_rest",
    "C172_humanoid",
    "C172_dynamics"
   ],
   "note": "The effort of a joint with several degrees of freedom is the first of them. Requires, for the fixed frame, that the first joint is the floating base, as in every robot that is loaded."
  },
  {
   "property": "C173",
   "status": "partial",
   "theorems": [
    "C173_set_joints",
    "C173_kinematics",
    "C173_set_joint",
    "C173_dynamics_behaviour",
    "C173_velocities",
    "C173_dynamics_partial",
    "C173_dynamics_refuted"
   ],
   "note": "Proved for the kinematics. In the dynamics set_joints keeps the velocities and accelerations that the joints had, while set_joint resets them (C173_dynamics_refuted): proved when they had none."
  },
  {
   "property": "C174",
   "status": "partial",
   "theorems": [
    "C174_kinematics",
    "C174_dynamics_behaviour",
    "C174_dynamics_partial",
    "C174_set_joint_behaviour",
    "C174_dynamics_refuted",
    "C174_state_kept",
    "C174_copy_kept",
    "C174_frames_behaviour",
    "C174_frames_refuted"
   ],
   "note": "Holds for the kinematics solver, and for the methods that keep the state; refuted for the dynamics solver: setting a joint through the attribute is lost, and the frames computed by a copy are seen by the robot."
  },
  {
   "property": "C175",
   "status": "proved",
   "theorems": [
    "C175_answers",
    "C175_libraries",
    "C175_robot_model",
    "C175_mixture_behaviour",
    "C175_careless_refuted",
    "C175_hessians_behaviour"
   ],
   "note": "Proved for programs that call update_kinematics after each change of the state; the exact behaviour of the others is given, with a counterexample."
  },
  {
   "property": "C176",
   "status": "partial",
   "theorems": [
    "C176_contacts",
    "C176_index",
    "C176_index_behaviour",
    "C176_index_refuted",
    "C176_promised",
    "C176_unset"
   ],
   "note": "All proved but for the indices: get_contact with an index out of range is undefined behaviour instead of an exception (C176_index_behaviour, C176_index_refuted)."
  },
  {
   "property": "C177",
   "status": "partial",
   "theorems": [
    "C177_history_behaviour",
    "C177_dump_partial",
    "C177_solve_behaviour",
    "C177_position",
    "C177_com",
    "C177_joints",
    "C177_new_refuted",
    "C177_stale_refuted"
   ],
   "note": "False of the code as stated: the error is the one computed by the last successful solve or dump_status, before the step of that solve (C177_history_behaviour, C177_solve_behaviour); a new task reports 0 (C177_new_refuted) and a task just brought to its target by a solve does not (C177_stale_refuted). Right after dump_status it is as stated (C177_dump_partial). The meaning of the norm is proved."
  },
  {
   "property": "C178",
   "status": "partial",
   "theorems": [
    "C178_repetitive",
    "C178_naive_partial",
    "C178_naive_behaviour",
    "C178_naive_refuted",
    "C178_unconfigured_refuted"
   ],
   "note": "Proved for the repetitive planner (C178_repetitive). False for the naive planner when the limits of the steps were changed after it was created, since it keeps those of its creation (C178_naive_refuted; exact behaviour C178_naive_behaviour; C178_naive_partial otherwise). A planner never configured reads indeterminate values (C178_unconfigured_refuted)."
  },
  {
   "property": "C179",
   "status": "proved",
   "theorems": [
    "C179_planned",
    "C179_replanned",
    "C179_parallel"
   ],
   "note": "For planned walks (C179_planned), replanned walks (C179_replanned) and parallel feet (C179_parallel)."
  },
  {
   "property": "C180",
   "status": "proved",
   "theorems": [
    "C180_followed",
    "C180_ticks",
    "C180_switch",
    "C180_on_track",
    "C180_correction"
   ],
   "note": "One update (C180_followed), any number of them (C180_ticks), the change of walk (C180_switch), the DCM controller on track (C180_on_track) and away from it (C180_correction)."
  },
  {
   "property": "C181",
   "status": "partial",
   "theorems": [
    "C181_errors_behaviour",
    "C181_dump",
    "C181_solve",
    "C181_position",
    "C181_com",
    "C181_orientation",
    "C181_joints",
    "C181_gears",
    "C181_torques",
    "C181_wrench_behaviour",
    "C181_inactive_refuted",
    "C181_stale_refuted"
   ],
   "note": "The code falls short of the statement: C181_stale_refuted (errors) and C181_inactive_refuted (wrench of a disabled contact). Exact behaviour: C181_errors_behaviour, C181_wrench_behaviour; what holds: C181_dump, C181_solve and the meaning of each error."
  },
  {
   "property": "C182",
   "status": "partial",
   "theorems": [
    "C182_model",
    "C182_beside_partial",
    "C182_beside_behaviour",
    "C182_text_mjcf",
    "C182_no_file",
    "C182_beside_refuted"
   ],
   "note": "C182_model, C182_text_mjcf and C182_no_file hold for every path; the pairs are those beside the model when the path tells a directory (C182_beside_partial) and not otherwise (C182_beside_behaviour, C182_beside_refuted)."
  },
  {
   "property": "C183",
   "status": "partial",
   "theorems": [
    "C183_frames",
    "C183_positions",
    "C183_unchecked_behaviour",
    "C183_frame_names",
    "C183_between",
    "C183_same_as_index",
    "C183_refuted"
   ],
   "note": "C183_frames, C183_positions, C183_frame_names, C183_between and C183_same_as_index hold for every robot; the other calls by the name of a joint do not check it (C183_unchecked_behaviour, C183_refuted)."
  },
  {
   "property": "C184",
   "status": "partial",
   "theorems": [
    "C184_limits_partial",
    "C184_returns",
    "C184_failure",
    "C184_reported_behaviour",
    "C184_reported_refuted"
   ],
   "note": "C184_returns and C184_failure hold; C184_limits_partial is for joints with one number in q and one in v, as C62; what the robot reports after a success is one displacement late (C184_reported_behaviour, C184_reported_refuted)."
  },
  {
   "property": "C185",
   "status": "partial",
   "theorems": [
    "C185_partial",
    "C185_lasting_behaviour",
    "C185_made_behaviour",
    "C185_refuted"
   ],
   "note": "Proved when the flag is only written while the walk has no tasks in a solver (C185_partial). Refuted otherwise (C185_refuted); exact behaviour: a task keeps the configuration of the moment it was made (C185_made_behaviour), the five tasks that last have one priority, names and weights are as documented (C185_lasting_behaviour)."
  },
  {
   "property": "C186",
   "status": "proved",
   "theorems": [
    "C186_matrix",
    "C186_energy",
    "C186_history"
   ],
   "note": "The matrix (C186_matrix), the energy (C186_energy) and any history (C186_history)."
  },
  {
   "property": "C187",
   "status": "proved",
   "theorems": [
    "C187_tiling",
    "C187_drift",
    "C187_distinct",
    "C187_timesteps",
    "C187_lost_behaviour",
    "C187_timesteps_differ_behaviour"
   ],
   "note": "Tiling (C187_tiling), error on the end (C187_drift), distinct starts (C187_distinct) with a witness that the bound is needed (C187_lost_behaviour), timesteps (C187_timesteps) with a witness of a difference (C187_timesteps_differ_behaviour). Overflow, infinities and NaN are not modelled."
  },
  {
   "property": "C188",
   "status": "partial",
   "theorems": [
    "C188_partial",
    "C188_refuted",
    "C188_behaviour",
    "C188_accuracy"
   ],
   "note": "The code breaks it by rounding: C188_refuted, with the computation in C188_behaviour. What holds for every history, and for one replan, is C188_partial; C188_accuracy says how accurate the ratio is."
  },
  {
   "property": "C189",
   "status": "partial",
   "theorems": [
    "C189_state",
    "C189_highest_partial",
    "C189_highest_behaviour",
    "C189_highest_refuted"
   ],
   "note": "The state: C189_state. The highest derivative at t_start + k dt is not the input k: C189_highest_refuted, C189_highest_behaviour (timesteps of 5 ms); what holds is C189_highest_partial."
  },
  {
   "property": "C190",
   "status": "partial",
   "theorems": [
    "C190_limits",
    "C190_partial",
    "C190_kept_behaviour",
    "C190_outside_behaviour",
    "C190_refuted"
   ],
   "note": "The limits and the signs: C190_limits. An allowed step is not always returned as it is and a clipped step not always allowed: C190_refuted, C190_kept_behaviour, C190_outside_behaviour; what holds is C190_partial."
  },
  {
   "property": "C191",
   "status": "partial",
   "theorems": [
    "C191_partial",
    "C191_over_behaviour",
    "C191_replan_behaviour",
    "C191_refuted"
   ],
   "note": "The code breaks it by rounding: C191_refuted, C191_over_behaviour, and C191_replan_behaviour for the history of C188. What holds is C191_partial."
  },
  {
   "property": "C192",
   "status": "partial",
   "theorems": [
    "C192_planned_partial",
    "C192_takes_time",
    "C192_lands_partial",
    "C192_late_behaviour",
    "C192_refuted"
   ],
   "note": "The code breaks it by rounding: C192_refuted, C192_late_behaviour. What holds is C192_planned_partial with C192_takes_time, and C192_lands_partial."
  },
  {
   "property": "C193",
   "status": "partial",
   "theorems": [
    "C193_history_partial",
    "C193_near_partial",
    "C193_satisfiable",
    "C193_speed_partial",
    "C193_refuted",
    "C193_masked_behaviour",
    "C193_speed_behaviour"
   ],
   "note": "The code breaks it by rounding: C193_refuted, C193_masked_behaviour, C193_speed_behaviour. What holds is C193_history_partial, C193_near_partial, C193_satisfiable and C193_speed_partial."
  },
  {
   "property": "C194",
   "status": "partial",
   "theorems": [
    "C194_accessible",
    "C194_scaled_partial",
    "C194_refuted"
   ],
   "note": "The code breaks it by rounding: C194_refuted. What holds is C194_accessible and C194_scaled_partial."
  },
  {
   "property": "C195",
   "status": "partial",
   "theorems": [
    "C195_position_partial",
    "C195_speed_partial",
    "C195_unset",
    "C195_stuck_behaviour",
    "C195_refuted",
    "C195_accelerated_partial"
   ],
   "note": "The code breaks it by rounding: C195_refuted, C195_stuck_behaviour. What holds is C195_position_partial, C195_accelerated_partial, C195_speed_partial and C195_unset."
  },
  {
   "property": "C196",
   "status": "partial",
   "theorems": [
    "C196_history_partial",
    "C196_satisfiable",
    "C196_refuted"
   ],
   "note": "The code breaks it by rounding: C196_refuted. What holds is C196_history_partial and C196_satisfiable; only the velocity limits alone are satisfiable (together with other constraints of the problem nothing is said)."
  },
  {
   "property": "C197",
   "status": "proved",
   "theorems": [
    "C197_contained",
    "C197_any_period",
    "C197_back"
   ],
   "note": "How far a joint can go over a limit (C197_contained, C197_any_period) and how long it can stay over it (C197_back), with real numbers."
  },
  {
   "property": "C198",
   "status": "proved",
   "theorems": [
    "C198_damped",
    "C198_damped_diverges",
    "C198_undamped",
    "C198_converges",
    "C198_diverges"
   ],
   "note": "Below the threshold C198_converges, from it on C198_diverges; with any damping C198_damped, C198_damped_diverges and C198_undamped."
  }
 ]
}