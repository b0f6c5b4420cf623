{
 "claims": [
  {
   "property": "C01",
   "status": "proved",
   "theorems": [
    "C01_nodes",
    "C01_other_schemes_nodes",
    "C01_other_schemes_raise"
   ],
   "note": "Order 0 and order 1 of the other scheme names are outside the statement (they raise or return fixed points)."
  },
  {
   "property": "C02",
   "status": "proved",
   "theorems": [
    "C02_basis",
    "C02_interpolation_exact",
    "C02_rows_sum_to_one"
   ],
   "note": ""
  },
  {
   "property": "C03",
   "status": "proved",
   "theorems": [
    "C03_first_derivative",
    "C03_second_derivative",
    "C03_other_orders_raise"
   ],
   "note": ""
  },
  {
   "property": "C04",
   "status": "proved",
   "theorems": [
    "C04_quadrature_exact",
    "C04_LGR_gauss",
    "C04_LGL_gauss"
   ],
   "note": ""
  },
  {
   "property": "C05",
   "status": "proved",
   "theorems": [
    "C05_differentiation",
    "C05_interpolation",
    "C05_quadrature"
   ],
   "note": ""
  },
  {
   "property": "C06",
   "status": "proved",
   "theorems": [
    "C06_composite_differentiation",
    "C06_composite_second_derivative",
    "C06_every_row_owned",
    "C06_interpolants_exist"
   ],
   "note": ""
  },
  {
   "property": "C07",
   "status": "partial",
   "theorems": [
    "C07_composite_quadrature_formula",
    "C07_composite_quadrature_LGR_partial",
    "C07_composite_quadrature_refuted",
    "C07_LGL_refuted"
   ],
   "note": "Full property is refuted (two segments of order 1; every multi-segment LGL mesh). The exact value is given for all schemes, and the property is proved for LGR with later segments of order >= 2 and for single segments of any order."
  },
  {
   "property": "C08",
   "status": "proved",
   "theorems": [
    "C08_composite_interpolation"
   ],
   "note": ""
  },
  {
   "property": "C09",
   "status": "proved",
   "theorems": [
    "C09_history_independent",
    "C09_object_refines_functions",
    "C09_new_object",
    "C09_custom_roots",
    "C09_unknown_name"
   ],
   "note": "For composite differentiation and quadrature the successful results are compared; which exception is raised may depend on the order of distinct keys."
  },
  {
   "property": "C10",
   "status": "partial",
   "theorems": [
    "C10_lengths",
    "C10_counter_partial",
    "C10_counter_refuted"
   ],
   "note": "Lengths proved; the attribute _optimization_vars_per_phase (set, not used elsewhere in the class) is right iff there is one phase or no parameter."
  },
  {
   "property": "C11",
   "status": "proved",
   "theorems": [
    "C11_roundtrip",
    "C11_onto",
    "C11_injective"
   ],
   "note": "Segment widths of phase ph are entries ph*n_segments.. of the parameter vector (definition width in SpecOcp.v, used by C13, C14)."
  },
  {
   "property": "C12",
   "status": "proved",
   "theorems": [
    "C12_bounds"
   ],
   "note": ""
  },
  {
   "property": "C13",
   "status": "proved",
   "theorems": [
    "C13_dynamics",
    "C13_whole_program"
   ],
   "note": "The form in physical time needs a non-zero phase duration and non-empty segments; C13_whole_program is the form without that hypothesis and covers every block of g."
  },
  {
   "property": "C14",
   "status": "proved",
   "theorems": [
    "C14_node_times",
    "C14_values",
    "C14_ends_and_order"
   ],
   "note": ""
  },
  {
   "property": "C15",
   "status": "proved",
   "theorems": [
    "C15_path_terminal"
   ],
   "note": ""
  },
  {
   "property": "C16",
   "status": "partial",
   "theorems": [
    "C16_objective_partial",
    "C16_objective_refuted"
   ],
   "note": "Refuted in general (two segments of order 1; see C07). The exact objective is given for all meshes; equality holds for LGR with later orders >= 2 and for one segment."
  },
  {
   "property": "C17",
   "status": "proved",
   "theorems": [
    "C17_links"
   ],
   "note": ""
  },
  {
   "property": "C18",
   "status": "partial",
   "theorems": [
    "C18_scaling_partial",
    "C18_partner",
    "C18_slope_refuted"
   ],
   "note": "Proved when diff_u is off in every phase; refuted with diff_u on (the limits are compared with scaled slopes)."
  },
  {
   "property": "C19",
   "status": "partial",
   "theorems": [
    "C19_midu",
    "C19_slope_partial",
    "C19_slope_refuted",
    "C19_continuity_partial",
    "C19_continuity_refuted"
   ],
   "note": "midu proved. diff_u imposes the limits on (scale * segment half-duration * slope): characterised exactly, property refuted. du_continuity: proved for equal widths, refuted for unequal ones."
  },
  {
   "property": "C20",
   "status": "partial",
   "theorems": [
    "C20_guess_partial",
    "C20_controls_refuted"
   ],
   "note": "States, times and parameters proved for all sizes, controls for n_controls <= 1; refuted for two controls."
  },
  {
   "property": "C21",
   "status": "partial",
   "theorems": [
    "C21_forward_partial",
    "C21_forward_refuted"
   ],
   "note": "Proved for phases whose ubt0 is at most lbtf; refuted for the second phase of a default two-phase problem."
  },
  {
   "property": "C22",
   "status": "proved",
   "theorems": [
    "C22_warm_start",
    "C22_no_solution",
    "C22_given_x_suffices",
    "C22_single_key",
    "C22_solver_inputs"
   ],
   "note": ""
  },
  {
   "property": "C23",
   "status": "partial",
   "theorems": [
    "C23_options",
    "C23_dictionaries_kept",
    "C23_adaptive_ipopt_partial",
    "C23_adaptive_refuted"
   ],
   "note": "Proved for class mpopt. mpopt_h_adaptive.solve: effective options proved for ipopt; for another solver it adds ipopt.print_level, and it writes into the caller's dictionary (refuted)."
  },
  {
   "property": "C24",
   "status": "proved",
   "theorems": [
    "C24_reuse",
    "C24_creating_call"
   ],
   "note": "Stated for class mpopt over arbitrary sequences of solve calls and user writes to the option dictionaries; mpopt_h_adaptive keeps the solver object as well (C25_loop)."
  },
  {
   "property": "C25",
   "status": "proved",
   "theorems": [
    "C25_loop",
    "C25_history",
    "C25_counts_anew",
    "C25_one_segment"
   ],
   "note": "With max_iter = 0 and no initial solution solve raises (UnboundLocalError)."
  },
  {
   "property": "C26",
   "status": "partial",
   "theorems": [
    "C26_residual_partition",
    "C26_equal_area_partial",
    "C26_equal_area_refuted",
    "C26_slope_partition",
    "C26_solution_area_partial"
   ],
   "note": "Proved for merge_split, unknown method names and control slopes; equal_area: length and positivity proved, the sum of a phase is 1 iff the last two residual points are not both 0 (refuted otherwise). What a step computes for a phase that is not below tolerance is stated too."
  },
  {
   "property": "C27",
   "status": "proved",
   "theorems": [
    "C27_merge_split"
   ],
   "note": ""
  },
  {
   "property": "C28",
   "status": "partial",
   "theorems": [
    "C28_equal_area_partial",
    "C28_sum_refuted"
   ],
   "note": "Equal shares and positivity proved; the widths sum to 1 iff the last two residuals are not both 0 (refuted otherwise)."
  },
  {
   "property": "C29",
   "status": "partial",
   "theorems": [
    "C29_candidates_partial",
    "C29_steepest_refuted",
    "C29_boundaries",
    "C29_clamp_partition",
    "C29_limits_partial",
    "C29_limits",
    "C29_ratio",
    "C29_limits_refuted"
   ],
   "note": "Candidates, boundaries and partition proved; candidates come flattest first, so the steepest are dropped (refuted), and normalising after clamping can leave the limits (refuted)."
  },
  {
   "property": "C30",
   "status": "partial",
   "theorems": [
    "C30_requested_nodes",
    "C30_wrong_sum_raises",
    "C30_tolerated_sum",
    "C30_tolerated_sum_refuted"
   ],
   "note": "Proved for widths summing to exactly 1 and the error case. Within the tolerance the phase ends at the sum of the widths, so the end node can be lost (refuted part, also happens in binary64 with ten widths of 0.1)."
  },
  {
   "property": "C31",
   "status": "partial",
   "theorems": [
    "C31_mid_points",
    "C31_spectral",
    "C31_fixed_single",
    "C31_inside",
    "C31_fixed_partial",
    "C31_fixed_refuted"
   ],
   "note": "Proved for mid-points and spectral, and for fixed with one segment. For fixed with several segments the code drops the last point of the first segment and keeps the end of the phase (refuted; exact points in C31_fixed_partial)."
  },
  {
   "property": "C32",
   "status": "partial",
   "theorems": [
    "C32_values",
    "C32_zero_at_nodes",
    "C32_one_grid_partial",
    "C32_grid_per_phase_refuted"
   ],
   "note": "Values, zeros at collocation points and the converse proved. Without given points all phases use the grid type of phase 0 (refuted for per-phase types)."
  },
  {
   "property": "C33",
   "status": "proved",
   "theorems": [
    "C33_integrated_states",
    "C33_zero_if_exact",
    "C33_one_phase",
    "C33_relative"
   ],
   "note": ""
  },
  {
   "property": "C34",
   "status": "partial",
   "theorems": [
    "C34_bounded_adaptive",
    "C34_bounded",
    "C34_relative",
    "C34_returned_refuted"
   ],
   "note": "Bound proved for all returned values; the call raises AssertionError when the dynamics of a state vanish at all points or a residual exceeds their maximum (C34_relative says exactly when, witness in C34_returned_refuted)."
  },
  {
   "property": "C35",
   "status": "proved",
   "theorems": [
    "C35_time_grid",
    "C35_ends",
    "C35_increasing",
    "C35_segments_in_order",
    "C35_requested_times"
   ],
   "note": ""
  },
  {
   "property": "C36",
   "status": "partial",
   "theorems": [
    "C36_nodal",
    "C36_interpolated",
    "C36_default_points",
    "C36_shared_points",
    "C36_parameters_partial",
    "C36_parameter_square",
    "C36_parameters_refuted"
   ],
   "note": "States, controls and times proved for both classes, all phase lists, nodal and interpolated data. Parameters in user units are refuted for two or more of them (a matrix of size na x na per phase); proved in solver units and for one parameter."
  },
  {
   "property": "C37",
   "status": "partial",
   "theorems": [
    "C37_points",
    "C37_grid_partial",
    "C37_count_refuted",
    "C37_short_raises",
    "C37_short_refuted"
   ],
   "note": "All parts but the bound on the number of points, which is refuted (at most 2n-3 is proved); grids of fewer than two points raise."
  },
  {
   "property": "C38",
   "status": "partial",
   "theorems": [
    "C38_of_adaptive_solution",
    "C38_of_solution",
    "C38_uniform_partial",
    "C38_single_partial",
    "C38_first_phase",
    "C38_phase_refuted",
    "C38_ragged_raises",
    "C38_no_segments",
    "C38_ragged_refuted"
   ],
   "note": "Proved for lists that start with phase 0 when all segments have equally many points, and for the list [0]. Refuted for other first phases (phase 0 is always taken) and for several phases with ragged data (raises)."
  },
  {
   "property": "C39",
   "status": "proved",
   "theorems": [
    "C39_feasible",
    "C39_defaults",
    "C39_sizes",
    "C39_fixed_widths",
    "C39_fixed_partner",
    "C39_variable_partner",
    "C39_solve",
    "C39_warm_start",
    "C39_no_solution",
    "C39_guess",
    "C39_trajectories"
   ],
   "note": "Defects at mid points are those of the scaled equations times the width, as coded (dynamics times segment half-length minus derivative in the reference coordinate)."
  },
  {
   "property": "C40",
   "status": "partial",
   "theorems": [
    "C40_mpopt_partial",
    "C40_adaptive_partial",
    "C40_adaptive_refuted"
   ],
   "note": "mpopt (and mpopt_h_adaptive, which uses its program): all three, in the units of the code (C19 says how those differ from the documented ones). mpopt_adaptive: diff_u and midu hold at feasible points; du_continuity is ignored (witness)."
  },
  {
   "property": "C41",
   "status": "partial",
   "theorems": [
    "C41_solve_raises",
    "C41_solve_refuted",
    "C41_limits",
    "C41_limits_raises",
    "C41_limited",
    "C41_mesh_update",
    "C41_mesh_total",
    "C41_residual",
    "C41_raised",
    "C41_rough",
    "C41_rest_partial"
   ],
   "note": "solve_ph reads the local name grid_type before it has a value and raises UnboundLocalError for every input (C41_solve_raises); the solver is never called. Limits of the orders and the mesh update hold as stated. C41_rest_partial says what the rest of the method would do: orders stay within the limits, but widths of an updated mesh never reach the solver (solve ignores the keyword) and one phase that meets the tolerance stops the loop."
  },
  {
   "property": "C42",
   "status": "partial",
   "theorems": [
    "C42_validate_iff",
    "C42_defaults",
    "C42_switches_refuted"
   ],
   "note": "validate is characterised exactly and accepts all defaults; it does not look at diff_u, midu, du_continuity, lbdu, ubdu, so the 'every attribute' part is refuted."
  },
  {
   "property": "C43",
   "status": "partial",
   "theorems": [
    "C43_construct",
    "C43_new_problem",
    "C43_copy_partial",
    "C43_int_orders",
    "C43_writes",
    "C43_list_orders",
    "C43_default_dynamics_refuted",
    "C43_orders_list_refuted"
   ],
   "note": "Construction and integer orders proved; data attributes and user-supplied functions are independent of the user's OCP; the default dynamics and a list of orders are shared (refuted parts)."
  },
  {
   "property": "C44",
   "status": "partial",
   "theorems": [
    "C44_defaults_refuted",
    "C44_base_partial"
   ],
   "note": "Refuted for mpopt_h_adaptive (the default dictionary of mpopt_options is filled by the first call); class mpopt leaves the defaults untouched."
  },
  {
   "property": "C45",
   "status": "partial",
   "theorems": [
    "C45_no_coarsening_refuted",
    "C45_single_run_partial"
   ],
   "note": "Refuted when there are several runs above tolerance; proved when there is at most one."
  },
  {
   "property": "C46",
   "status": "proved",
   "theorems": [
    "C46_second_derivatives"
   ],
   "note": ""
  },
  {
   "property": "C47",
   "status": "proved",
   "theorems": [
    "C47_refine_by_residual",
    "C47_refine_by_slope",
    "C47_loop_widths"
   ],
   "note": "For control slopes and residual refinement by any sub-method other than equal_area (for which see C26, C26_solution_area_partial)."
  },
  {
   "property": "C48",
   "status": "proved",
   "theorems": [
    "C48_loop_succeeds"
   ],
   "note": "Same scope as C47; the solver is an arbitrary function that returns a full solution with increasing phase times."
  },
  {
   "property": "C49",
   "status": "partial",
   "theorems": [
    "C49_total_adaptive",
    "C49_residuals_adaptive_partial",
    "C49_states_only_adaptive",
    "C49_total",
    "C49_residuals_partial",
    "C49_states_only",
    "C49_states_refuted"
   ],
   "note": "Proved with residual_dx=True. Refuted for residual_x=True, residual_dx=False: the state residuals are computed and dropped. C49_total: process_results returns for every solution and known grid type. Both also for class mpopt_adaptive (for feasible points)."
  },
  {
   "property": "C50",
   "status": "partial",
   "theorems": [
    "C50_after_solve",
    "C50_values_partial",
    "C50_zero_at_nodes_partial",
    "C50_feasible_partial",
    "C50_states_partial",
    "C50_second_derivatives_partial",
    "C50_as_fixed_partial",
    "C50_stored_widths",
    "C50_earlier_solution_refuted",
    "C50_feasible_widths"
   ],
   "note": "Proved for the solution of the last solve (its widths are the stored ones) and equal to class mpopt on the same trajectory and widths. C50_stored_widths says what is returned for any stored widths; refuted for an earlier solution, whose residuals mix its times with the stored widths."
  },
  {
   "property": "C51",
   "status": "proved",
   "theorems": [
    "C51_stopping",
    "C51_tolerance_refuted"
   ],
   "note": "Stated for runs that return; C48 gives conditions under which they do. Widths are compared by |v_i - w_i| / v_i in exact arithmetic. That an early end means the tolerance was met is refuted."
  },
  {
   "property": "C52",
   "status": "proved",
   "theorems": [
    "C52_once",
    "C52_solution",
    "C52_total",
    "C52_refuses",
    "C52_raises"
   ],
   "note": "Stated for plot=False. The solver is arbitrary; feasibility of its point is a premise or conclusion, never assumed. Totality needs widths that partition and a known grid type per phase, and a solver whose result has x (of the program's size) and f."
  },
  {
   "property": "C53",
   "status": "partial",
   "theorems": [
    "C53_data",
    "C53_results",
    "C53_many_raises",
    "C53_many_refuted",
    "C53_dynamics",
    "C53_solution",
    "C53_phase",
    "C53_both",
    "C53_fixed_refuted",
    "C53_states_refuted",
    "C53_phases_refuted",
    "C53_x",
    "C53_u",
    "C53_again",
    "C53_nested",
    "C53_numbers",
    "C53_lists",
    "C53_styles",
    "C53_norms",
    "C53_default_styles",
    "C53_wrong_axes"
   ],
   "note": "Curves, their axes, formats and labels; legends, axis labels and grids are not modelled. Refuted beyond fifteen states or controls, for uneven residual grids and for the phases whose residuals are shown; plots of residuals are proved for class mpopt."
  },
  {
   "property": "C54",
   "status": "partial",
   "theorems": [
    "C54_dynamics",
    "C54_solution",
    "C54_mid_points_refuted",
    "C54_states",
    "C54_given_axes",
    "C54_some_phases_raises",
    "C54_some_phases_refuted",
    "C54_empty_raises"
   ],
   "note": "Drawn for one phase or level grids; refuted for mid-points with several phases and orders that differ, for a part of the phases and for empty segments. C54_solution decides both cases for grids mid-points and spectral."
  },
  {
   "property": "C55",
   "status": "partial",
   "theorems": [
    "C55_local_slope",
    "C55_same_width_partial",
    "C55_steepest_in_time_refuted"
   ],
   "note": "The ranking number is characterised for all meshes; the order by slope in time holds for nodes of segments of the same width and is refuted otherwise."
  },
  {
   "property": "C56",
   "status": "partial",
   "theorems": [
    "C56_by_residual",
    "C56_by_slope",
    "C56_run_by_residual",
    "C56_run_by_slope",
    "C56_phases_refuted",
    "C56_several_raises",
    "C56_several_slope_raises",
    "C56_number_raises"
   ],
   "note": "Curves, figure and returned widths for all runs of refinements; drawing of the other phases is refuted, several entries of phases_to_plot and numbers from 75 raise."
  },
  {
   "property": "C57",
   "status": "proved",
   "theorems": [
    "C57_recorded_error",
    "C57_tolerance"
   ],
   "note": "Residuals are those that dynamics_residuals computes at the residual points; C32-C34 say what they are."
  },
  {
   "property": "C58",
   "status": "proved",
   "theorems": [
    "C58_objective",
    "C58_lander",
    "C58_every_mesh_refuted"
   ],
   "note": "Proved as stated, with the limit that the statement names (theorems named refuted: the claim beyond it). Exact on LGR meshes with later orders >= 2 and on one segment; on other meshes the missing part is characterised (C58_objective) and shown not to vanish (C58_every_mesh_refuted). C58_lander instantiates it for the moon lander of the tests."
  },
  {
   "property": "C59",
   "status": "proved",
   "theorems": [
    "C59_exact_solution",
    "C59_lander"
   ],
   "note": "Control slope switches are off (no_slopes); with them the constraint is not on the slope in time (C18, C42). C59_lander gives a feasible point of the moon lander of the tests on every LGR mesh of orders >= 4."
  },
  {
   "property": "C60",
   "status": "proved",
   "theorems": [
    "C60_convex",
    "C60_local_is_global",
    "C60_LGR_weights",
    "C60_LGL_weights",
    "C60_CGL_weights",
    "C60_weights_nonneg",
    "C60_free_time_refuted"
   ],
   "note": "Proved as stated, with the limit that the statement names (theorems named refuted: the claim beyond it). Proved for fixed end times on every mesh of all three schemes (LGR, LGL, CGL); with a free end time the claim is refuted (C60_free_time_refuted)."
  },
  {
   "property": "C61",
   "status": "proved",
   "theorems": [
    "C61_lower_bound",
    "C61_glide",
    "C61_sprint",
    "C61_every_mesh_refuted"
   ],
   "note": "Proved as stated, with the limit that the statement names (theorems named refuted: the claim beyond it). LGR orders >= 2, or one LGL segment; on order-1 meshes the bound fails (C61_every_mesh_refuted). C61_glide and C61_sprint give the least cost of two programs on every LGR mesh."
  },
  {
   "property": "C62",
   "status": "partial",
   "theorems": [
    "C62_consistency",
    "C62_convergence",
    "C62_decay",
    "C62_order_one_refuted"
   ],
   "note": "C62_consistency covers every scheme and mesh for the constraints; the objective part needs LGR and orders >= 2, or one segment: with order 1 it is false (C62_order_one_refuted). Derivatives are two-sided at the end times, so the solution must extend smoothly beyond them."
  },
  {
   "property": "C63",
   "status": "partial",
   "theorems": [
    "C63_runs",
    "C63_bounds",
    "C63_guesses",
    "C63_functions",
    "C63_scales",
    "C63_switches",
    "C63_well_formed",
    "C63_slopes_partial",
    "C63_slopes_refuted",
    "C63_unbounded_refuted"
   ],
   "note": "C63_runs, C63_bounds, C63_guesses, C63_functions, C63_scales, C63_switches and C63_well_formed are full. Partial because slope bounds are kept only when they are integers (C63_slopes_refuted, C63_unbounded_refuted). Replacing whole arrays of bounds or guesses is not modelled."
  },
  {
   "property": "C64",
   "status": "proved",
   "theorems": [
    "C64_relaxed",
    "C64_cheaper",
    "C64_bound"
   ],
   "note": "Full. Relaxed problems keep the dynamics, links and start of the problem; the comparison of objectives needs end times not before start times."
  },
  {
   "property": "C65",
   "status": "proved",
   "theorems": [
    "C65_combined"
   ],
   "note": "Full."
  },
  {
   "property": "C66",
   "status": "proved",
   "theorems": [
    "C66_later",
    "C66_shifted_exists"
   ],
   "note": "Full; the shifted point is related to the point through the trajectories both stand for."
  },
  {
   "property": "C67",
   "status": "proved",
   "theorems": [
    "C67_mayer_form",
    "C67_motion_exists",
    "C67_back",
    "C67_converse_refuted"
   ],
   "note": "Proved as stated, with the limit that the statement names (theorems named refuted: the claim beyond it). From the form with the extra state to the problem: full, with equality of the objectives on LGR meshes with orders of at least 2 after the first segment and on one-segment meshes. The converse is refuted; C67_back says exactly which points come from the form when the extra state is free."
  },
  {
   "property": "C68",
   "status": "proved",
   "theorems": [
    "C68_cut",
    "C68_join_exists",
    "C68_cut_exists",
    "C68_same_program_refuted"
   ],
   "note": "Proved as stated, with the limit that the statement names (theorems named refuted: the claim beyond it). Exact comparison of the two programs (feasibility and objective) and existence of the points both ways. That the programs are the same is refuted: the first segment of a phase is also collocated at its first node. Slope continuity (du_continuity) is switched off in both problems; the parameters of both phases are equal."
  },
  {
   "property": "C69",
   "status": "partial",
   "theorems": [
    "C69_distance",
    "C69_feasible_order",
    "C69_between_nodes",
    "C69_fine_mesh_refuted"
   ],
   "note": "Bounds for every feasible point given smoothness of the right side along it, a bound from the defects for every point, and bounds between the nodes. Claim without smoothness refuted on every number of segments. Existence of the trajectory of the differential equation is a hypothesis (follows), not proved in general."
  },
  {
   "property": "C70",
   "status": "proved",
   "theorems": [
    "C70_coordinates",
    "C70_exists",
    "C70_best",
    "C70_curved_refuted"
   ],
   "note": "Proved as stated, with the limit that the statement names (theorems named refuted: the claim beyond it). Holds for affine changes of coordinates in both directions, with solutions. The claim for smooth changes that are not affine is refuted on every number of segments."
  },
  {
   "property": "C71",
   "status": "proved",
   "theorems": [
    "C71_closed",
    "C71_compact",
    "C71_exists",
    "C71_unbounded_refuted",
    "C71_jumping_refuted"
   ],
   "note": "Proved as stated, with the limit that the statement names (theorems named refuted: the claim beyond it). Closedness, compactness and existence hold for continuous functions and finite bounds. Existence without finite bounds, or without continuity, is refuted on every number of segments."
  },
  {
   "property": "C72",
   "status": "proved",
   "theorems": [
    "C72_convex_set",
    "C72_nodes",
    "C72_unique",
    "C72_first_control_refuted",
    "C72_cart"
   ],
   "note": "Proved as stated, with the limit that the statement names (theorems named refuted: the claim beyond it). The set of solutions is convex; strict convexity fixes states and controls at the nodes that have a weight. Uniqueness in full is refuted for LGR with a first order of 2 or more, where the first control has no weight."
  },
  {
   "property": "C73",
   "status": "proved",
   "theorems": [
    "C73_between",
    "C73_value",
    "C73_start",
    "C73_any_cost_refuted"
   ],
   "note": "Proved as stated, with the limit that the statement names (theorems named refuted: the claim beyond it). Proved for convex problems with fixed end times. Without a convex cost it is refuted on every mesh, by x' = 0 with cost -x(1)^2."
  },
  {
   "property": "C74",
   "status": "proved",
   "theorems": [
    "C74_untouched",
    "C74_any_cost_refuted"
   ],
   "note": "Proved as stated, with the limit that the statement names (theorems named refuted: the claim beyond it). Proved for convex problems with fixed end times. Without a convex cost it is refuted for x' = u with final cost v^2 - v^4/2, LGR and any number of segments of order 1."
  },
  {
   "property": "C75",
   "status": "proved",
   "theorems": [
    "C75_paths",
    "C75_start_refuted",
    "C75_midpoints_refuted"
   ],
   "note": "Proved as stated, with the limit that the statement names (theorems named refuted: the claim beyond it). Proved for points that start within the bounds and whose bounded midpoint controls meet them. Without the first it is refuted for x' = u from 0 with state bounds 1 and 2, without the second for every scheme on one segment of order 2."
  },
  {
   "property": "C76",
   "status": "proved",
   "theorems": [
    "C76_defects",
    "C76_one_segment",
    "C76_finer",
    "C76_later_segments_refuted",
    "C76_nonlinear_refuted"
   ],
   "note": "Proved as stated, with the limit that the statement names (theorems named refuted: the claim beyond it). On later segments the defect need not vanish: refuted for x' = u and K >= 2 segments of order 1; for nonlinear equations refuted for x' = u^2 on one segment."
  },
  {
   "property": "C77",
   "status": "proved",
   "theorems": [
    "C77_shape",
    "C77_points",
    "C77_all",
    "C77_solutions",
    "C77_links",
    "C77_phases_refuted"
   ],
   "note": "Proved as stated, with the limit that the statement names (theorem named refuted: several phases, where the moved problem is always infeasible)."
  },
  {
   "property": "C78",
   "status": "proved",
   "theorems": [
    "C78_any_point",
    "C78_feasible_order",
    "C78_order_one_refuted"
   ],
   "note": "Proved as stated, with the limit that the statement names (theorem named refuted: several segments of order 1). Existence of the trajectory of the differential equation is a hypothesis (follows), as in C69."
  },
  {
   "property": "C79",
   "status": "proved",
   "theorems": [
    "C79_trajectory",
    "C79_two_starts",
    "C79_feasible_near",
    "C79_objective",
    "C79_no_trajectory_refuted"
   ],
   "note": "Proved as stated, with the limit that the statement names (theorem named refuted: dynamics that are not Lipschitz). Removes the assumption of C69 and C78 that the trajectory exists, for Lipschitz dynamics."
  },
  {
   "property": "C80",
   "status": "proved",
   "theorems": [
    "C80_points",
    "C80_all",
    "C80_solutions",
    "C80_first_refuted"
   ],
   "note": "C80_first_refuted: the correspondence fails if another phase becomes the first (its first state is fixed to x00). The three other theorems are the property, for the same first phase."
  },
  {
   "property": "C81",
   "status": "proved",
   "theorems": [
    "C81_problem",
    "C81_phase",
    "C81_unlinked",
    "C81_last_refuted"
   ],
   "note": "C81_last_refuted: without equal first controls the last phase of a solution need not solve its own problem, as links fix these too. The other theorems are the property."
  },
  {
   "property": "C82",
   "status": "proved",
   "theorems": [
    "C82_exact",
    "C82_at_most",
    "C82_squares_refuted"
   ],
   "note": "C82_squares_refuted: laws that are not linear are not kept. C82_at_most needs LGR (or LGL on one segment) and orders of at least 2. C82_exact is the property for all schemes."
  },
  {
   "property": "C83",
   "status": "proved",
   "theorems": [
    "C83_nodes_unique",
    "C83_symmetric",
    "C83_weights",
    "C83_radau",
    "C83_reverse",
    "C83_segments_refuted"
   ],
   "note": "C83_segments_refuted: not so on two segments. C83_radau: LGR nodes of order 2 or more are not symmetric, so C83_reverse is limited to LGL and CGL."
  },
  {
   "property": "C84",
   "status": "proved",
   "theorems": [
    "C84_beside",
    "C84_parts",
    "C84_join",
    "C84_split",
    "C84_times_refuted"
   ],
   "note": "C84_times_refuted: with free times the parts of a solution need not be solutions. C84_split therefore asks for given times."
  },
  {
   "property": "C85",
   "status": "proved",
   "theorems": [
    "C85_feasible",
    "C85_solutions",
    "C85_start_refuted"
   ],
   "note": "C85_start_refuted: agreement within the bounds alone is not enough; the given initial state counts."
  },
  {
   "property": "C86",
   "status": "proved",
   "theorems": [
    "C86_determined",
    "C86_coarse_refuted"
   ],
   "note": "C86_coarse_refuted: on coarse meshes states are not determined."
  },
  {
   "property": "C87",
   "status": "proved",
   "theorems": [
    "C87_first",
    "C87_steer",
    "C87_free_refuted"
   ],
   "note": "C87_free_refuted: controls that meet all conditions on themselves need not belong to a feasible point."
  },
  {
   "property": "C88",
   "status": "proved",
   "theorems": [
    "C88_score",
    "C88_solutions",
    "C88_running_refuted"
   ],
   "note": "C88_running_refuted: with a running cost the solutions change."
  },
  {
   "property": "C89",
   "status": "proved",
   "theorems": [
    "C89_fix",
    "C89_drop",
    "C89_add",
    "C89_solutions",
    "C89_bounds_refuted"
   ],
   "note": "C89_bounds_refuted: values merely within the bounds cannot be put in."
  },
  {
   "property": "C90",
   "status": "proved",
   "theorems": [
    "C90_stable",
    "C90_flow_refuted"
   ],
   "note": "C90_flow_refuted: the bound for solutions of the state equations, without the constant of the scheme, does not hold for feasible points."
  },
  {
   "property": "C91",
   "status": "proved",
   "theorems": [
    "C91_values",
    "C91_sparse",
    "C91_times_refuted"
   ],
   "note": "C91_times_refuted: the times are variables of every row."
  },
  {
   "property": "C92",
   "status": "proved",
   "theorems": [
    "C92_contract",
    "C92_determined",
    "C92_scheme_refuted",
    "C92_growing_refuted"
   ],
   "note": "C92_scheme_refuted, C92_growing_refuted: the contraction needs Radau nodes (or degree one) and dissipation."
  },
  {
   "property": "C93",
   "status": "proved",
   "theorems": [
    "C93_damped",
    "C93_kept_refuted",
    "C93_scheme_refuted"
   ],
   "note": "C93_kept_refuted: the distance is not kept if the equations keep it; C93_scheme_refuted: not for CGL."
  },
  {
   "property": "C94",
   "status": "proved",
   "theorems": [
    "C94_convex",
    "C94_degree_refuted"
   ],
   "note": "C94_degree_refuted: not for order 2."
  },
  {
   "property": "C95",
   "status": "proved",
   "theorems": [
    "C95_forget",
    "C95_exponential_refuted"
   ],
   "note": "C95_exponential_refuted: the rate of the differential equation is not reached."
  },
  {
   "property": "C96",
   "status": "proved",
   "theorems": [
    "C96_spread",
    "C96_long_refuted"
   ],
   "note": "C96_long_refuted: the condition on the duration is needed."
  }
 ]
}
