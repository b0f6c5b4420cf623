{"id": "C01", "title": "Collocation nodes are well formed", "statement": "For schemes LGR, LGL and CGL and every polynomial order p >= 1, the collocation points of order p are exactly p+1 strictly increasing numbers, the first is tau_min and the last is tau_max (for any configured tau_min < tau_max). For the other scheme names the code accepts (\"LG\" and unknown names) this fails for every order p >= 2, and building the optimizer's approximation then raises instead of returning matrices.", "quantifier": "all scheme names, all orders p, all tau_min < tau_max, all results of the external Jacobi-root routine that are increasing and inside (-1,1)", "why_tests_cant": "Tests build orders 1 and 3; a node count or ordering error at another order or another tau range goes unseen.", "anchors": ["mpopt/mpopt.py:CollocationRoots.get_collocation_points", "mpopt/mpopt.py:CollocationRoots.roots_legendre_gauss", "mpopt/mpopt.py:CollocationRoots.roots_legendre_gauss_radau", "mpopt/mpopt.py:CollocationRoots.roots_legendre_gauss_lobatto", "mpopt/mpopt.py:CollocationRoots.roots_chebyshev_gauss_lobatto", "mpopt/mpopt.py:Collocation.get_composite_differentiation_matrix"]}
{"id": "C02", "title": "Basis polynomials are the Lagrange basis of the nodes", "statement": "For any pairwise distinct nodes the j-th basis polynomial is 1 at node j and 0 at the other nodes, and the interpolation matrix reproduces, at every requested point, every polynomial of degree < number of nodes from its nodal values (in particular rows sum to 1).", "quantifier": "all lists of distinct nodes, all evaluation points, all polynomials of low enough degree, both D_MATRIX_METHOD settings", "why_tests_cant": "The claim is over all real nodes and all polynomials; tests check order 1 only.", "anchors": ["mpopt/mpopt.py:Collocation.get_lagrange_polynomials", "mpopt/mpopt.py:Collocation.get_interpolation_matrix"]}
{"id": "C03", "title": "Differentiation matrices are exact on polynomials", "statement": "The order-1 (order-2) differentiation matrix at any evaluation points, applied to the nodal values of a polynomial of degree < number of nodes, gives the first (second) derivative of that polynomial at these points. An order other than 1 or 2 raises.", "quantifier": "all distinct nodes, evaluation points and polynomials, both D_MATRIX_METHOD settings", "why_tests_cant": "Quantifies over all polynomials and node sets.", "anchors": ["mpopt/mpopt.py:Collocation.get_diff_matrix"]}
{"id": "C04", "title": "Quadrature weights are exact on polynomials", "statement": "For any limits a,b the quadrature weights applied to the nodal values of a polynomial of degree < number of nodes give the integral of that polynomial over [a,b]; in particular the weights sum to b-a. On the package's own LGR (LGL) nodes of order p >= 2 the rule is exact up to degree 2p-2 (2p-1).", "quantifier": "all distinct nodes, limits, polynomials, both D_MATRIX_METHOD settings", "why_tests_cant": "Quantifies over all polynomials, nodes and limits.", "anchors": ["mpopt/mpopt.py:Collocation.get_quadrature_weights"]}
{"id": "C05", "title": "Symbolic and numerical matrices coincide", "statement": "Setting D_MATRIX_METHOD to \"symbolic\" or to \"numerical\" yields the same interpolation, differentiation (order 1 and 2) and quadrature matrices.", "quantifier": "all node lists, evaluation points, limits", "why_tests_cant": "One test compares order 3 up to 1e-5.", "anchors": ["mpopt/mpopt.py:Collocation.get_lagrange_polynomials", "mpopt/mpopt.py:Collocation.get_diff_matrix", "mpopt/mpopt.py:Collocation.get_quadrature_weights", "mpopt/mpopt.py:Collocation.get_interpolation_matrix"]}
{"id": "C06", "title": "Composite differentiation matrix differentiates each segment's polynomial", "statement": "For any list of orders and any data that is, on every segment, the nodal values of some polynomial of that segment's order (shared boundary nodes), row r of the composite differentiation matrix times the data is the derivative of the polynomial of the segment that owns node r; a boundary node belongs to the segment it ends. The matrix is square of size sum(orders)+1.", "quantifier": "all order lists, all piecewise polynomials", "why_tests_cant": "Depends on every list of orders (any number of segments, unequal orders).", "anchors": ["mpopt/mpopt.py:Collocation.get_composite_differentiation_matrix", "mpopt/mpopt.py:Collocation.get_diff_matrices"]}
{"id": "C07", "title": "Composite quadrature integrates over every segment", "statement": "The composite quadrature weights applied to nodal values of a piecewise polynomial give the sum over all segments of the segment integrals (on the reference interval).", "quantifier": "all schemes, all order lists, all piecewise polynomials", "why_tests_cant": "Only appears with two or more segments and depends on the scheme; tests never compare with a known integral.", "anchors": ["mpopt/mpopt.py:Collocation.get_composite_quadrature_weights"]}
{"id": "C08", "title": "Composite interpolation matrices act segment by segment", "statement": "For any list of evaluation points per segment (possibly empty for some segments) the composite interpolation (derivative) matrix times nodal data gives, in order, the values (first/second derivatives) of each segment's interpolating polynomial at that segment's points.", "quantifier": "all order lists, all lists of evaluation points including empty ones, all nodal data", "why_tests_cant": "Unequal orders and empty segments interact with offsets in unboundedly many ways.", "anchors": ["mpopt/mpopt.py:Collocation.get_composite_interpolation_matrix", "mpopt/mpopt.py:Collocation.get_composite_interpolation_Dmatrix_at"]}
{"id": "C09", "title": "Collocation object caching is transparent", "statement": "After any history of calls on one Collocation object (matrix queries for any order, registration of custom roots under other keys), a query for order p returns the same matrices as a freshly built object. If custom roots were registered under a key, queries for this key use the roots registered last, until the key is initialised again.", "quantifier": "all finite histories of method calls", "why_tests_cant": "Histories are unbounded; tests call each method once on a fresh object.", "anchors": ["mpopt/mpopt.py:Collocation.init_polynomials", "mpopt/mpopt.py:Collocation.init_polynomials_with_customized_roots", "mpopt/mpopt.py:Collocation.get_diff_matrix", "mpopt/mpopt.py:Collocation.get_quadrature_weights", "mpopt/mpopt.py:Collocation.get_interpolation_matrix"]}
{"id": "C10", "title": "NLP vectors have matching lengths", "statement": "For every validated OCP and every mesh, create_nlp gives x, lbx, ubx of equal length, g, lbg, ubg of equal length, and initialize_solution a vector of the length of x; the lengths are the documented counts.", "quantifier": "all dimensions nx, nu, na, phases, orders, optional constraint switches", "why_tests_cant": "Tests check two dimension choices.", "anchors": ["mpopt/mpopt.py:mpopt.create_nlp", "mpopt/mpopt.py:mpopt.get_nlp_variables", "mpopt/mpopt.py:mpopt.discretize_phase", "mpopt/mpopt.py:mpopt.get_event_constraints", "mpopt/mpopt.py:mpopt.initialize_solution", "mpopt/mpopt.py:mpopt._optimization_vars_per_phase"]}
{"id": "C11", "title": "Decision vector layout is a bijection", "statement": "Evaluating the trajectories of a phase on the decision vector built from any states, controls, times and parameters returns exactly these; conversely every vector of the right length arises from exactly one such choice. Segment-width parameters are grouped by phase.", "quantifier": "all dimensions, all values, all phases", "why_tests_cant": "Index arithmetic over all dimensions.", "anchors": ["mpopt/mpopt.py:mpopt.get_nlp_variables", "mpopt/mpopt.py:mpopt.init_trajectories", "mpopt/mpopt.py:mpopt.create_nlp"]}
{"id": "C12", "title": "Variable bounds mean the user's bounds", "statement": "With positive scales, a decision vector is within [lbx, ubx] iff in the user's units every state, control, initial/final time and parameter of every phase is within its user bounds at every node, except that the first node of phase 0 must equal x00[0] (whatever its bounds) and x00 of later phases imposes nothing.", "quantifier": "all OCPs, all bounds including +-inf, all positive scales, all decision vectors", "why_tests_cant": "Quantifies over all vectors, bounds and scales.", "anchors": ["mpopt/mpopt.py:mpopt.get_nlp_variables"]}
{"id": "C13", "title": "Dynamics constraints are the collocation equations", "statement": "The dynamics block of g vanishes iff for every phase, segment, state and collocation node owned by the segment, the polynomial of the segment's order in physical time through the node values has derivative equal to the user's dynamics at the node (user units).", "quantifier": "all OCPs, meshes, widths, decision vectors, positive scales", "why_tests_cant": "Semantic equivalence over all inputs.", "anchors": ["mpopt/mpopt.py:mpopt.get_discretized_dynamics_constraints_and_cost_matrices", "mpopt/mpopt.py:mpopt.get_nlp_constraints_for_dynamics"]}
{"id": "C14", "title": "Node times", "statement": "Node j of segment k has time t0 + (tf-t0)*(sum of the widths before k + width k * (tau_j - tau0)/(tau1-tau0)); the first is t0, the last is tf when the widths sum to 1, and the times increase strictly when tf > t0 and the widths are positive.", "quantifier": "all orders, widths, t0, tf", "why_tests_cant": "Loop invariant over any number of segments and nodes.", "anchors": ["mpopt/mpopt.py:mpopt.get_discretized_dynamics_constraints_and_cost_matrices"]}
{"id": "C15", "title": "Path and terminal constraints", "statement": "g is within bounds iff (among the other blocks) every component of the path constraint function is <= 0 at every node and every component of the terminal constraint function is 0 at the phase's end points, evaluated in user units; absent functions (returning None) impose nothing.", "quantifier": "all OCPs, meshes, decision vectors", "why_tests_cant": "Quantifies over all user functions and vectors.", "anchors": ["mpopt/mpopt.py:mpopt.get_nlp_constraints_for_path_contraints", "mpopt/mpopt.py:mpopt.get_nlp_constraints_for_terminal_contraints", "mpopt/mpopt.py:OCP.has_path_constraints", "mpopt/mpopt.py:OCP.has_terminal_constraints"]}
{"id": "C16", "title": "Objective is Mayer term plus integral of the running cost", "statement": "The NLP objective equals the sum over phases of the terminal cost plus the integral over the phase of the piecewise polynomial that interpolates the running cost at the nodes.", "quantifier": "all OCPs, meshes, widths, decision vectors", "why_tests_cant": "Needs the integral for all costs and meshes; tests only check the shape of J.", "anchors": ["mpopt/mpopt.py:mpopt.discretize_phase", "mpopt/mpopt.py:Collocation.get_composite_quadrature_weights"]}
{"id": "C17", "title": "Phase linking", "statement": "The linking block is within bounds iff for the k-th link (i,j): lbe[k] <= x_j(first)-x_i(last) <= ube[k] in user units, controls are equal and t0 of j equals tf of i.", "quantifier": "all phase counts, link lists, scales, decision vectors", "why_tests_cant": "Any number of phases and arbitrary link lists.", "anchors": ["mpopt/mpopt.py:mpopt.get_event_constraints"]}
{"id": "C18", "title": "Scaling does not change the problem", "statement": "For positive scales, a user-unit trajectory is feasible for the NLP built with these scales iff it is feasible for the NLP built with all scales 1, and has the same objective.", "quantifier": "all positive scales, all trajectories, all OCPs", "why_tests_cant": "Relates two NLPs for all scales.", "anchors": ["mpopt/mpopt.py:mpopt.create_variables", "mpopt/mpopt.py:mpopt.get_nlp_variables", "mpopt/mpopt.py:mpopt.discretize_phase", "mpopt/mpopt.py:mpopt.get_nlp_constraints_for_control_input_slope"]}
{"id": "C19", "title": "Optional control constraints", "statement": "midu bounds the control polynomial at the midpoint of every pair of adjacent nodes of every segment by the user bounds; diff_u bounds its slope at every node by lbdu/ubdu; du_continuity makes the slope of the control continuous in time at every interior segment boundary.", "quantifier": "all meshes, widths, bounds, decision vectors", "why_tests_cant": "Slicing arithmetic over any number of segments; semantics over all vectors.", "anchors": ["mpopt/mpopt.py:mpopt.get_nlp_constraints_for_control_input_slope", "mpopt/mpopt.py:mpopt.get_nlp_constrains_for_control_input_at_mid_colloc_points", "mpopt/mpopt.py:mpopt.get_nlp_constrains_for_control_slope_continuity_across_segments"]}
{"id": "C20", "title": "Initial guess is the linear interpolation", "statement": "The default initial guess assigns to state s (control c) at node i the linear interpolation between the user's initial and final guesses, and the guessed times and parameters, in the positions of the decision vector where these variables live.", "quantifier": "all dimensions, guesses, orders", "why_tests_cant": "The layout matters only for nu > 1, which no test inspects.", "anchors": ["mpopt/mpopt.py:mpopt.init_solution_per_phase", "mpopt/mpopt.py:mpopt_adaptive.init_solution_per_phase"]}
{"id": "C21", "title": "Feasible points have forward time", "statement": "In every point feasible for the NLP of a validated OCP every phase has tf >= t0.", "quantifier": "all OCPs, all feasible points", "why_tests_cant": "Claim about the whole feasible set.", "anchors": ["mpopt/mpopt.py:OCP.__init__", "mpopt/mpopt.py:mpopt.get_nlp_variables", "mpopt/mpopt.py:mpopt.get_event_constraints"]}
{"id": "C22", "title": "Warm start inputs", "statement": "Whatever dictionary is passed as initial solution, the solver receives an x0; x/x0, lam_x/lam_x0, lam_g/lam_g0 entries are forwarded under the solver's names, nothing else is, and without x/x0 the default guess is used.", "quantifier": "all dictionaries (any keys, any order)", "why_tests_cant": "Quantifies over all dictionaries.", "anchors": ["mpopt/mpopt.py:mpopt.get_solver_warm_start_input_parameters"]}
{"id": "C23", "title": "Solver options", "statement": "Every user option reaches the NLP solver unchanged, defaults are used for the other keys only for ipopt, and no other option is passed; the call does not modify the caller's dictionaries.", "quantifier": "all option dictionaries and solver names", "why_tests_cant": "Quantifies over all dictionaries; mutation of arguments is invisible to single calls.", "anchors": ["mpopt/mpopt.py:mpopt.create_solver", "mpopt/mpopt.py:mpopt_h_adaptive.solve", "mpopt/mpopt.py:mpopt_adaptive.create_solver"]}
{"id": "C24", "title": "Solver object reuse across solve calls", "statement": "Over any sequence of solve calls, the solver object used is the one created at the first call or at the last call with reinitialize_nlp=True, with that call's solver name and options; widths used for the solve are the ones remembered for post-processing.", "quantifier": "all finite sequences of solve calls", "why_tests_cant": "Histories are unbounded.", "anchors": ["mpopt/mpopt.py:mpopt.solve", "mpopt/mpopt.py:mpopt.create_solver", "mpopt/mpopt.py:mpopt.reset_mpopt", "mpopt/mpopt.py:mpopt_adaptive.solve"]}
{"id": "C25", "title": "h-adaptive iteration", "statement": "For any NLP solver behaviour and any refinement rule, solve performs at most max_iter NLP solves, iter_count counts them, the returned solution is the last one computed and the remembered segment widths are exactly those it was computed with; a run with one segment performs one solve.", "quantifier": "all solver behaviours, tolerances, max_iter, initial solutions", "why_tests_cant": "Unbounded loop over an arbitrary oracle with five exits.", "anchors": ["mpopt/mpopt.py:mpopt_h_adaptive.solve"]}
{"id": "C26", "title": "Refined widths stay a partition", "statement": "Whatever the residuals, the segment widths produced by every refinement method have n_segments entries per phase, are positive, and sum to 1 in each phase.", "quantifier": "all residual data, all widths, all phases, all methods", "why_tests_cant": "All residual patterns and widths.", "anchors": ["mpopt/mpopt.py:mpopt_h_adaptive.compute_seg_width_based_on_residuals", "mpopt/mpopt.py:mpopt_h_adaptive.compute_seg_width_based_on_input_slope", "mpopt/mpopt.py:mpopt_h_adaptive.get_segment_width_parameters"]}
{"id": "C27", "title": "merge/split refinement", "statement": "merge_split keeps the number of segments and the total width, keeps widths positive, keeps every boundary between a group of segments below tolerance and a group above it, turns each maximal run of segments below tolerance into one segment and splits each run above tolerance evenly; if nothing can be merged or nothing is above tolerance it changes nothing.", "quantifier": "all residual lists, widths, tolerances", "why_tests_cant": "All groupings of any number of segments.", "anchors": ["mpopt/mpopt.py:mpopt_h_adaptive.merge_split_segments_based_on_residuals"]}
{"id": "C28", "title": "Equal-area refinement", "statement": "The widths returned cut the piecewise linear cumulative residual area into n_segments equal shares, are positive, and sum to 1.", "quantifier": "all residual lists with positive total, all n_segments", "why_tests_cant": "All residual shapes including trailing zeros.", "anchors": ["mpopt/mpopt.py:mpopt_h_adaptive.get_roots_wrt_equal_area"]}
{"id": "C29", "title": "Control-slope refinement", "statement": "compute_time_at_max_values returns interior node times whose control slope norm is at least the threshold, steepest first; the resulting boundaries are sorted, inside the phase, and the widths after clamping lie within the width limits and sum to 1.", "quantifier": "all time grids, slopes, thresholds, limits, n_segments", "why_tests_cant": "All data; integer rounding of the number of sub-segments.", "anchors": ["mpopt/mpopt.py:mpopt_h_adaptive.compute_time_at_max_values", "mpopt/mpopt.py:mpopt_h_adaptive.compute_segment_widths_at_times", "mpopt/mpopt.py:mpopt_h_adaptive.compute_seg_width_based_on_input_slope"]}
{"id": "C30", "title": "Mapping requested nodes to segments", "statement": "For positive widths summing to 1, every requested node in (tau0, tau1] is assigned to exactly one segment, in order, at the local coordinate that denotes the same physical point; widths whose sum differs from 1 by 1e-6 or more raise.", "quantifier": "all node lists, widths, tau ranges", "why_tests_cant": "Boundary coincidences and any number of segments.", "anchors": ["mpopt/mpopt.py:mpopt.compute_interpolation_taus_corresponding_to_original_grid"]}
{"id": "C31", "title": "Residual grids avoid the end points", "statement": "For each grid type the residual evaluation points of each segment lie in the reference interval, and the start and end node of the phase are not included.", "quantifier": "all grid types, orders, widths, number of segments", "why_tests_cant": "Depends on number of segments; tests use one segment.", "anchors": ["mpopt/mpopt.py:mpopt.get_residual_grid_taus"]}
{"id": "C32", "title": "Dynamics residual vanishes at collocation nodes", "statement": "For any point satisfying the dynamics constraints, the dynamics residual evaluated at collocation nodes (other than the start of later segments) is 0; the residual of each phase is evaluated on that phase's configured grid type.", "quantifier": "all OCPs, meshes, feasible points, grid types per phase", "why_tests_cant": "Ties two independent code paths for all inputs.", "anchors": ["mpopt/mpopt.py:mpopt.get_dynamics_residuals", "mpopt/mpopt.py:mpopt.get_dynamics_residuals_single_phase", "mpopt/mpopt.py:mpopt.interpolate_single_phase"]}
{"id": "C33", "title": "State residual is exact integration error", "statement": "The integrated state at a grid point is the segment's initial state plus the integral of the polynomial interpolating the dynamics at the segment's grid points; the residual is 0 whenever the state polynomial's derivative is the dynamics along the segment and the dynamics along it is a polynomial resolved by the grid.", "quantifier": "all OCPs, grids, solutions", "why_tests_cant": "Semantic claim over all inputs.", "anchors": ["mpopt/mpopt.py:mpopt.compute_states_from_solution_dynamics", "mpopt/mpopt.py:mpopt.get_states_residuals"]}
{"id": "C34", "title": "Relative residuals are bounded by one", "statement": "With residual_type=\"relative\" the dynamics residuals returned lie between -1 and 1.", "quantifier": "all solutions", "why_tests_cant": "Tests never exercise the assertion with a poor solution.", "anchors": ["mpopt/mpopt.py:mpopt.get_dynamics_residuals"]}
{"id": "C35", "title": "Interpolated time grid", "statement": "The time attached to local coordinate tau of segment k is the affine image of tau between that segment's end times; times of increasing points increase; at tau0/tau1 they are the segment's end times.", "quantifier": "all time grids, orders, points", "why_tests_cant": "All orders and grids.", "anchors": ["mpopt/mpopt.py:mpopt.get_interpolated_time_grid", "mpopt/mpopt.py:post_process.get_interpolated_time_grid"]}
{"id": "C36", "title": "Retrieved trajectories", "statement": "get_data returns, for the listed phases in order, states/controls/parameters in user units (solver units if scaling=True) with one row per node and the node times in user units; interpolated data has one row per interpolation point, agrees with the nodal data at shared points, and rows of x, u and t correspond.", "quantifier": "all solutions, phase lists, scales", "why_tests_cant": "All phase lists and dimensions.", "anchors": ["mpopt/mpopt.py:post_process.get_trajectories", "mpopt/mpopt.py:post_process.get_original_data", "mpopt/mpopt.py:post_process.get_interpolated_data", "mpopt/mpopt.py:post_process.get_data"]}
{"id": "C37", "title": "Non-uniform refinement of a grid", "statement": "Refining an increasing grid keeps it increasing, keeps all given points, keeps the end points, terminates, and returns at most n points.", "quantifier": "all grids, all n", "why_tests_cant": "All grids and n.", "anchors": ["mpopt/mpopt.py:post_process.get_non_uniform_interpolation_grid"]}
{"id": "C38", "title": "Residual data per phase", "statement": "sort_residual_data(time, residuals, phases) returns the times and residual norms of exactly the requested phases, in order.", "quantifier": "all data, phase lists", "why_tests_cant": "All phase lists.", "anchors": ["mpopt/mpopt.py:post_process.sort_residual_data"]}
{"id": "C39", "title": "Adaptive transcription (widths as variables)", "statement": "For mpopt_adaptive, a point is feasible iff it satisfies the collocation problem with its own widths, the widths of each phase sum to 1 and lie within lbh/ubh, the control and state polynomials respect their bounds at midpoints, and width-weighted dynamics residuals at midpoints are within tolerance; solve stores the widths of the solution, grouped by phase.", "quantifier": "all OCPs, meshes, decision vectors", "why_tests_cant": "Semantic equivalence over all inputs.", "anchors": ["mpopt/mpopt.py:mpopt_adaptive.get_nlp_variables", "mpopt/mpopt.py:mpopt_adaptive.get_nlp_constrains_for_segment_widths", "mpopt/mpopt.py:mpopt_adaptive.discretize_phase", "mpopt/mpopt.py:mpopt_adaptive.solve"]}
{"id": "C40", "title": "All switches of the OCP are honoured by every optimizer", "statement": "Every optimizer class imposes the optional control constraints enabled in the OCP (diff_u, midu, du_continuity).", "quantifier": "all OCPs, all optimizer classes", "why_tests_cant": "Requires comparing the constraint sets for all OCPs.", "anchors": ["mpopt/mpopt.py:mpopt_adaptive.discretize_phase", "mpopt/mpopt.py:mpopt.discretize_phase"]}
{"id": "C41", "title": "ph-adaptive refinement", "statement": "solve_ph returns a solution; orders stay within [poly_order_min, poly_order_max] which contain the initial orders; a mesh update keeps the total width and matches orders with widths.", "quantifier": "all OCPs, meshes, residual patterns", "why_tests_cant": "No test runs solve_ph.", "anchors": ["mpopt/mpopt.py:mpopt_ph_adaptive.__init__", "mpopt/mpopt.py:mpopt_ph_adaptive.solve_ph"]}
{"id": "C42", "title": "OCP validation is sound and accepts defaults", "statement": "validate accepts every freshly constructed OCP with at least one phase; if it accepts, every attribute has the shape the transcription needs and every lower bound is at most its upper bound; otherwise it raises.", "quantifier": "all OCPs, all dimensions", "why_tests_cant": "Tests try seven dimension choices.", "anchors": ["mpopt/mpopt.py:OCP.__init__", "mpopt/mpopt.py:OCP.validate", "mpopt/mpopt.py:OCP.get_dynamics"]}
{"id": "C43", "title": "Optimizer construction", "statement": "An integer order is used for all segments; construction succeeds iff the number of orders equals n_segments; changing the user's OCP afterwards does not change the optimizer's problem data.", "quantifier": "all arguments, all later mutations", "why_tests_cant": "All arguments and subsequent histories.", "anchors": ["mpopt/mpopt.py:mpopt.__init__", "mpopt/mpopt.py:mpopt.reset_mpopt"]}
{"id": "C44", "title": "Calls with default arguments do not influence each other", "statement": "A solve call that leaves its dictionary arguments at their defaults behaves the same whatever calls were made before with default arguments; in particular mpopt_h_adaptive.solve() refines by the currently configured default method.", "quantifier": "all sequences of calls, all solver behaviours, all settings of the default method", "why_tests_cant": "A dictionary default is shared by all calls of the process, so the effect depends on the history of calls in it.", "anchors": ["mpopt/mpopt.py:mpopt_h_adaptive.solve", "mpopt/mpopt.py:mpopt.solve"]}
{"id": "C45", "title": "merge/split never coarsens where the residual is too large", "statement": "When merge_split changes the widths, no segment lying in a run above tolerance is wider than the segments that run had before.", "quantifier": "all residual lists, widths, tolerances", "why_tests_cant": "Depends on the number and lengths of the runs above tolerance, for any number of segments.", "anchors": ["mpopt/mpopt.py:mpopt_h_adaptive.merge_split_segments_based_on_residuals"]}
{"id": "C46", "title": "Second derivatives", "statement": "The second derivatives reported at local points of a segment are those of the segment's state and control polynomials with respect to the local coordinate, with the times of these points.", "quantifier": "all OCPs, meshes, decision vectors, evaluation points", "why_tests_cant": "Holds for polynomials of every degree on every mesh; a test checks a few.", "anchors": ["mpopt/mpopt.py:mpopt.get_state_second_derivative", "mpopt/mpopt.py:mpopt.get_state_second_derivative_single_phase"]}
{"id": "C47", "title": "Every mesh of the refinement loop partitions the phases", "statement": "In mpopt_h_adaptive.solve with control-slope or residual refinement (other than equal_area), every call of the NLP solver is made with positive segment widths that sum to 1 in each phase. One refinement step keeps the widths of every phase whose residuals are all below its tolerance, reports the largest residual of all phases, and computes the other phases from their own residuals (merge_split of the largest residual per segment) or their own node times and control slopes.", "quantifier": "all OCPs, meshes, solver behaviours with increasing phase times, options, iteration limits, histories of calls", "why_tests_cant": "Unboundedly many refinement steps driven by arbitrary solver output.", "anchors": ["mpopt/mpopt.py:mpopt_h_adaptive.solve", "mpopt/mpopt.py:mpopt_h_adaptive.get_segment_width_parameters"]}
{"id": "C48", "title": "The refinement loop does not fail on its own", "statement": "If every call of the NLP solver returns a solution, mpopt_h_adaptive.solve with at least one iteration returns a solution for control-slope and residual refinement (other than equal_area): none of its refinement and stopping computations raises.", "quantifier": "all OCPs, meshes, solver behaviours, options, iteration limits", "why_tests_cant": "Depends on all residual patterns the solver can produce over arbitrarily many iterations.", "anchors": ["mpopt/mpopt.py:mpopt_h_adaptive.solve"]}
{"id": "C49", "title": "Residual data of processed results", "statement": "process_results(solution, plot=False, residual_x, residual_dx) returns an object for every solution and every known residual grid type, and attaches to it the state residuals exactly when residual_x is set and the dynamics residuals exactly when residual_dx is set.", "quantifier": "all OCPs, meshes, solutions, grid types, both flags", "why_tests_cant": "All problems and flag combinations; tests only run one combination on fixed problems.", "anchors": ["mpopt/mpopt.py:mpopt.process_results"]}
{"id": "C50", "title": "Residuals with variable widths", "statement": "For mpopt_adaptive, the dynamics residuals, integrated states and second derivatives returned for a solution are those of its own polynomials on its own segment widths: the same numbers as class mpopt returns for the same trajectory and widths, and 0 at collocation points when the solution is feasible.", "quantifier": "all OCPs, meshes, solutions, grids", "why_tests_cant": "Tests evaluate residuals only for the solution just solved for.", "anchors": ["mpopt/mpopt.py:mpopt_adaptive.init_trajectories", "mpopt/mpopt.py:mpopt.get_dynamics_residuals", "mpopt/mpopt.py:mpopt.get_states_residuals", "mpopt/mpopt.py:mpopt_adaptive.process_results"]}
{"id": "C51", "title": "When the refinement loop ends", "statement": "In mpopt_h_adaptive.solve each round solves with the widths the refinement rule proposed in the round before; the loop ends exactly when the error of a round is below every tolerance, or five or more errors are known and the last is within 5% of the mean of the last four, or no width would change by more than 5%, or max_iter rounds are done. iter_info lists the errors of the rounds in order; an initial solution whose error is below every tolerance is returned without solving.", "quantifier": "all OCPs, meshes, solver behaviours, refinement rules, tolerances, iteration limits, object states", "why_tests_cant": "Tests run a few problems that end in one of these ways and do not look at why.", "anchors": ["mpopt/mpopt.py:mpopt_h_adaptive.solve", "mpopt/mpopt.py:mpopt_h_adaptive.get_segment_width_parameters"]}
{"id": "C52", "title": "The module function solve", "statement": "solve(ocp, n_segments, poly_orders, scheme, solve_dict=...) builds the optimizer of its arguments (an integer order is used for every segment; a list of another length is refused with AssertionError before anything else), makes one solver object with the user's options and calls it exactly once, from the given initial solution or the default guess and with the given segment widths or equal ones. The returned post-processor holds the point the solver returned, in the user's units: the nodal data are a solution of the discretised problem (bounds, collocated dynamics, path, terminal and link constraints) exactly when that point is feasible for the NLP. An exception of the solver passes through; with well-formed arguments and a solver that returns, solve returns.", "quantifier": "all OCPs, segment counts, orders, schemes, solver behaviours, option dictionaries, initial solutions", "why_tests_cant": "Tests solve a few problems and compare end values; they do not relate the retrieved data to feasibility for every point a solver may return.", "anchors": ["mpopt/mpopt.py:solve", "mpopt/mpopt.py:mpopt.solve", "mpopt/mpopt.py:mpopt.process_results"]}
{"id": "C53", "title": "Curves drawn by the plotting methods", "statement": "For a post-processor made by process_results and at most fifteen states and controls, plot_phases and the plots of process_results draw one figure per entry of phases_to_plot, and on it exactly the data of the phases asked for: each state on the first axes and each control on the second, a smooth curve through the interpolated data and markers at the nodal data, labelled by the number of the state or control. With residuals a further axes object per kind of residual shows them; residuals computed at mid-points or spectral points can always be drawn. plot_x, plot_u, plot_single_variable draw the chosen dimensions on the axes they belong to. plot_residuals draws the norm of the residuals over their times. [Refuted: more than fifteen states or controls raise IndexError after fifteen curves; on the fixed grid phases with different numbers of points, and segments without points, raise ValueError; the residuals drawn are those of all phases, whatever phases are asked for.]", "quantifier": "all optimizers, points, widths, phase lists, formats, dimension lists, canvases", "why_tests_cant": "Tests call the plotting methods for one solution, if at all, and do not look at the curves; sizes above fifteen and uneven residual grids are not tried.", "anchors": ["mpopt/mpopt.py:post_process.plot_phases", "mpopt/mpopt.py:post_process.plot_phase", "mpopt/mpopt.py:post_process.plot_x", "mpopt/mpopt.py:post_process.plot_u", "mpopt/mpopt.py:post_process.plot_residuals", "mpopt/mpopt.py:mpopt.process_results"]}
{"id": "C54", "title": "Residual methods with plot=True", "statement": "get_dynamics_residuals(solution, plot=True) and get_states_residuals(solution, plot=True) return what they return without plot and draw, on one new figure, the norm of every residual of every phase over its time, once as points and once as a line; for one phase, or when all segments have the same number of points. [Refuted otherwise: with several phases and mid-points of segments whose orders differ they raise ValueError after making an empty figure; residuals of states for only some of the phases raise TypeError, and a segment without points ValueError.]", "quantifier": "all optimizers, points, widths, node lists, grid types, canvases", "why_tests_cant": "The tests do not draw residuals; orders that differ between segments together with several phases are not tried.", "anchors": ["mpopt/mpopt.py:mpopt.get_dynamics_residuals", "mpopt/mpopt.py:mpopt.get_states_residuals", "mpopt/mpopt.py:post_process.plot_residuals", "mpopt/mpopt.py:post_process.sort_residual_data"]}
{"id": "C55", "title": "Control-slope refinement and slopes in time", "statement": "Control-slope refinement ranks the nodes of a phase by the slope of the control signal. [Holds in the following form: the number that ranks a node is the slope of the control polynomial with respect to time, in scaled units, multiplied by the scaled length of the segment that owns the node, so nodes of segments of the same width are ranked by their slopes in time. Refuted for segments of different widths: a node with slope 4 in time is left out and a node with slope 3 becomes a boundary of the new mesh.]", "quantifier": "all OCPs, meshes, points of the NLP, phases, nodes", "why_tests_cant": "The tests run the refinement on examples that start from equal widths and look at the number of iterations; they do not compare the chosen boundaries with the slopes in time.", "anchors": ["mpopt/mpopt.py:mpopt_h_adaptive.compute_seg_width_based_on_input_slope", "mpopt/mpopt.py:mpopt_h_adaptive.compute_time_at_max_values"]}
{"id": "C56", "title": "Plot of the residuals of all refinements", "statement": "With plot_residual_evolution set, every refinement of segment widths returns the widths and the error that it returns without it and adds the norms of the residuals of the phases in phases_to_plot over time to one figure, which all refinements of a run share. [Holds for the first phase, whatever the one entry of phases_to_plot is (and for control slopes while the number of the refinement is below 75, where the list of marks ends: IndexError): four curves per refinement, marked with the number of the refinement. Refuted for the other phases of that entry, which are not drawn; two or more entries of phases_to_plot end the refinement with TypeError.]", "quantifier": "all OCPs, meshes, points of the NLP, refinement methods, runs of refinements, axes drawn on before", "why_tests_cant": "The tests leave plot_residual_evolution at False.", "anchors": ["mpopt/mpopt.py:mpopt_h_adaptive.compute_seg_width_based_on_residuals", "mpopt/mpopt.py:mpopt_h_adaptive.compute_seg_width_based_on_input_slope", "mpopt/mpopt.py:post_process.plot_residuals", "mpopt/mpopt.py:post_process.sort_residual_data"]}
{"id": "C57", "title": "The error that a refinement run reports", "statement": "When mpopt_h_adaptive.solve returns, with two or more segments and the method 'residual' or 'control_slope', the last error it recorded is the largest dynamics residual, over all phases, segments, residual points and states, of the returned solution on the segment widths the object remembers. If this error is below every tolerance, so is every one of these residuals. The last error belongs to the number the iteration counter shows.", "quantifier": "all OCPs, meshes, solvers and their answers, arguments, prior states of the object, iteration limits", "why_tests_cant": "The tests look at the number of iterations or at the final cost; they never recompute the residuals of the returned solution and compare them with the recorded error.", "anchors": ["mpopt/mpopt.py:mpopt_h_adaptive.solve", "mpopt/mpopt.py:mpopt_h_adaptive.compute_seg_width_based_on_residuals", "mpopt/mpopt.py:mpopt_h_adaptive.compute_seg_width_based_on_input_slope", "mpopt/mpopt.py:mpopt_h_adaptive.get_dynamics_residuals"]}
{"id": "C58", "title": "Running costs that are combinations of the state equations", "statement": "Suppose that in every phase the running cost is a fixed linear combination of the right-hand sides of the state equations plus a constant, as for the moon lander of the tests, where thrust is the acceleration plus the gravity. Then the objective at every feasible point depends only on the end values of the states, the end times and the terminal cost. It is the terminal cost, plus the same combination of the changes of the states, plus the constant times the duration. This holds for LGR meshes whose later segments have order 2 or more and for meshes of one segment. On other meshes the objective falls short by exactly the part that the first nodes of the later segments carry.", "quantifier": "all OCPs with such a running cost, schemes, meshes, widths, scales, values of the decision variables", "why_tests_cant": "The tests compare one optimal cost per problem with a number to within some digits; they look at no other feasible point and at few meshes.", "anchors": ["mpopt/mpopt.py:mpopt.get_nlp_constraints_for_dynamics", "mpopt/mpopt.py:mpopt.discretize_phase", "mpopt/mpopt.py:CollocationRoots", "mpopt/mpopt.py:Collocation.get_composite_quadrature_weights"]}
{"id": "C59", "title": "Exact polynomial solutions are feasible on every mesh", "statement": "Take states and controls that are polynomials in time and solve the continuous problem: differential equations, path, terminal and boundary conditions, links between phases. No slope constraints on the controls are switched on. Then their values at the nodes are a feasible point of the nonlinear program, on every mesh whose segment orders are at least the degrees, for every scheme, for all positive segment widths that add up to 1 in each phase, and for all scales. If the running cost along the solution is a polynomial that the LGR weights integrate, or one of degree at most the order on one segment, the objective there is the exact cost.", "quantifier": "all OCPs, polynomial solutions, schemes, meshes, widths, scales", "why_tests_cant": "Tests solve a few problems on a few meshes and cannot establish feasibility over all orders, widths and numbers of segments.", "anchors": ["mpopt/mpopt.py:mpopt.create_nlp", "mpopt/mpopt.py:mpopt.discretize_phase", "mpopt/mpopt.py:mpopt.get_nlp_constraints_for_dynamics", "mpopt/mpopt.py:mpopt.get_event_constraints"]}
{"id": "C60", "title": "Convex problems give convex programs", "statement": "Suppose that in every phase the state equations and terminal conditions are affine in states, controls and parameters, that path constraints, running cost and terminal cost are convex, and that start and end times are fixed. Then for every mesh, every scheme and all scales the feasible set of the nonlinear program is convex. The quadrature weights are never negative, so the objective is convex on the feasible set and every local minimum of the program is a global one. With a free end time the line between two feasible points can leave the feasible set.", "quantifier": "all such OCPs, schemes, meshes, widths, scales, pairs of feasible points", "why_tests_cant": "Tests see the one point that the solver returns and cannot tell whether a better one exists elsewhere.", "anchors": ["mpopt/mpopt.py:mpopt.create_nlp", "mpopt/mpopt.py:mpopt.discretize_phase", "mpopt/mpopt.py:mpopt.get_nlp_constraints_for_dynamics", "mpopt/mpopt.py:CollocationRoots", "mpopt/mpopt.py:Collocation.get_composite_quadrature_weights"]}
{"id": "C61", "title": "Lower bounds that hold on every LGR mesh", "statement": "Take a function V of time and state in each phase, affine in the state with coefficients polynomial in time, that along the state equations grows at most as fast as the running cost wherever bounds and path constraints hold. Then no feasible point of the program costs less than its terminal costs plus the growth of V between its first and its last node. This holds on LGR meshes of orders at least 2 and on one LGL segment, if the orders are high enough for the degrees of V. Together with exact solutions this fixes the least cost of a program: 12 for moving a cart with least effort, on every LGR mesh of orders at least 4, and 1/2 for a problem with a free end time, on every LGR mesh of orders at least 2. On meshes of order 1 a program can cost less.", "quantifier": "all OCPs, functions V, LGR meshes, widths, scales, feasible points", "why_tests_cant": "A test compares the cost that a solver found on one mesh with a number; it cannot exclude cheaper feasible points.", "anchors": ["mpopt/mpopt.py:mpopt.create_nlp", "mpopt/mpopt.py:mpopt.discretize_phase", "mpopt/mpopt.py:mpopt.get_nlp_constraints_for_dynamics", "mpopt/mpopt.py:Collocation.get_composite_quadrature_weights"]}
{"id": "C62", "title": "Smooth solutions nearly satisfy the constraints, with a known order", "statement": "Take a solution of the continuous problem whose states, and controls where they are also bounded at mid points, have one derivative more than the orders of the segments, bounded by M. Its values at the nodes satisfy the bounds of the variables exactly, and every other constraint of the program up to C * scale * M * (duration of the segment)^(order + 1), where C depends only on the scheme and the largest order. On LGR meshes of orders at least 2 the objective there differs from the cost by at most C * (bound on the derivatives of the running cost) * (sum of durations^(2 order)). Hence constraints and cost are met up to any tolerance on every such mesh with short enough segments. With segments of order 1 the objective need not tend to the cost.", "quantifier": "all OCPs without slope constraints, smooth solutions, meshes, widths, scales, tolerances", "why_tests_cant": "A test sees the error on a few meshes; it shows neither the order nor that the error tends to 0 on all meshes.", "anchors": ["mpopt/mpopt.py:mpopt.create_nlp", "mpopt/mpopt.py:mpopt.discretize_phase", "mpopt/mpopt.py:mpopt.get_nlp_constraints_for_dynamics", "mpopt/mpopt.py:mpopt.get_nlp_constrains_for_control_input_at_mid_colloc_points", "mpopt/mpopt.py:Collocation.get_composite_quadrature_weights"]}
{"id": "C63", "title": "Problems filled in by assignments contain what was assigned last", "statement": "A program makes an OCP and assigns to entries of its attributes: rows of bounds and of the initial guess (a number for all entries, a list, one entry), functions of phases, switches, slope bounds, scales; indices may count from the end. It runs to its end if and only if every index exists, every list has the length of its row or one entry, and every number given to a switch or slope bound is finite and within the range of int64. Then every entry holds the value given to it last or its documented default; nothing else changed. The problem can be transcribed if and only if there is a state, bounds are in order, functions return what they should and switches are on only when there are controls. Switches and slope bounds are arrays of integers: fractions are cut toward 0, so that slope bounds of 1/2 demand constant controls, and an infinite slope bound is an error.", "quantifier": "all dimensions, all sequences of assignments", "why_tests_cant": "Tests fill in a few problems with whole numbers; arrays of integers drop fractions without a word.", "anchors": ["mpopt/mpopt.py:OCP.__init__", "mpopt/mpopt.py:OCP.validate", "mpopt/mpopt.py:mpopt.get_nlp_constraints_for_control_input_slope"]}
{"id": "C64", "title": "Relaxing a problem loses no feasible point and gives lower bounds", "statement": "Take two problems with the same variables, scales, state equations, links and start. If the bounds of the second allow what those of the first allow, if its path and terminal conditions follow from those of the first, and if it demands no more of the control (slope bounds, mid-point bounds, continuous slopes), then at every point of every mesh where the program of the first problem is feasible, that of the second is too. If the costs of the second problem are nowhere larger, neither is its objective, as long as every phase ends no earlier than it starts. So a number that no feasible point of the relaxed program undercuts is not undercut by any feasible point of the program.", "quantifier": "all pairs of problems, all meshes and schemes, all decision vectors", "why_tests_cant": "It compares two programs at all points; with a negative quadrature weight or a row in the wrong place it would fail only for some costs and points.", "anchors": ["mpopt/mpopt.py:mpopt.create_nlp", "mpopt/mpopt.py:mpopt.discretize_phase", "mpopt/mpopt.py:mpopt.get_nlp_constraints_for_control_input_slope"]}
{"id": "C65", "title": "The objective is linear in the costs", "statement": "If the running and terminal costs of a problem are alpha times those of a second problem plus beta times those of a third, and a constant is added to the terminal cost of every phase, then at every point of every mesh its objective is alpha times the second objective plus beta times the third plus the sum of the constants.", "quantifier": "all problems with the same variables and scales, all coefficients, all meshes and schemes, all decision vectors", "why_tests_cant": "Tests look at single costs; weighting or scaling the two kinds of costs differently is visible only when they are combined.", "anchors": ["mpopt/mpopt.py:mpopt.create_nlp", "mpopt/mpopt.py:mpopt.discretize_phase"]}
{"id": "C66", "title": "Problems shifted in time have shifted programs", "statement": "If a problem is another one started s later (every function at time t + s is the other at time t, the bounds on start and end times are s later, all else is the same), then at points whose trajectories differ by the shift of the times the two programs are feasible together and have the same objective. Every point has such a shifted point.", "quantifier": "all problems, all shifts, all meshes and schemes, all decision vectors", "why_tests_cant": "Nearly all tests start at time 0, where an absolute time used in place of a duration makes no difference.", "anchors": ["mpopt/mpopt.py:mpopt.discretize_phase", "mpopt/mpopt.py:mpopt.get_nlp_constraints_for_control_input_slope"]}
{"id": "C67", "title": "A running cost turned into a state", "statement": "Take a problem and the form of it in which a further state has the running cost as its derivative, the change of that state is added to the terminal cost and there is no running cost. Every feasible point of the program of the form, on any mesh, gives a feasible point of the program of the problem with the same motion, and on LGR meshes with orders of at least 2 after the first segment (and on meshes with one segment) the two objectives are equal. The converse fails: with a free extra state, a feasible point of the problem comes from a feasible point of the form if and only if in every phase the running cost at the nodes of the first segment is a polynomial of a degree below the order of the segment.", "quantifier": "all problems and all bounds and scales of the extra state, all meshes and schemes, all decision vectors", "why_tests_cant": "It relates the quadrature of one program to the collocation rows of another at all points; tests compare optimal values up to solver tolerances.", "anchors": ["mpopt/mpopt.py:mpopt.discretize_phase", "mpopt/mpopt.py:mpopt.create_nlp", "mpopt/mpopt.py:CollocationRoots"]}
{"id": "C68", "title": "A phase cut in two linked phases", "statement": "Cut the only phase of a problem in two: two phases with the same functions and bounds, linked without jumps, terminal conditions and cost (which look only at the end) on the second phase. Take a point of the program of the cut problem and the point of the program of the uncut problem, on the mesh with the segments of both phases, that has the same values at the nodes and the same durations of segments. The first point is feasible exactly if the second is, the time of the cut is within its bounds, and the polynomials just after the cut satisfy the state equations (and slope bounds) at the first node of the second phase as well. The objectives differ by the quadrature weight of that node times the running cost there; for LGR points and a first segment of order 2 or more they are equal. Feasible points of the cut problem can always be joined, all points of the uncut one can be cut; but a feasible point need not be feasible after the cut.", "quantifier": "all problems with one phase, all meshes and schemes, all decision vectors and widths", "why_tests_cant": "It compares the rows of programs of two problems on different meshes at all points; tests solve either the one or the other.", "anchors": ["mpopt/mpopt.py:mpopt.get_event_constraints", "mpopt/mpopt.py:mpopt.discretize_phase", "mpopt/mpopt.py:mpopt.create_nlp"]}
{"id": "C69", "title": "Feasible points follow the differential equation between the nodes, with a known order", "statement": "Take a feasible point of the program, the polynomials through its states and controls on each segment, and the trajectory of the differential equation that starts at the same states and is driven by these control polynomials. If the right side along the polynomials has on a segment of order q as many as q derivatives in time, the last bounded by M, then the state polynomials violate the differential equation there by at most C*M*(duration of the segment)^q, with C depending on scheme and largest order only; and if the right side is one-sided Lipschitz in the states, the state polynomials and the trajectory differ at all times by at most that times a factor that grows exponentially with the time span. For any point (also an infeasible one) the distance is bounded by the distance at the start and the largest defect. Path constraints and bounds hold between the nodes up to rate of change times the distance in time to a node. Without the bounds on the derivatives the claim fails on every mesh: x' = u^2 with controls that alternate between -1 and 1 at the nodes.", "quantifier": "all problems, meshes, schemes, orders up to any Q, decision vectors, trajectories of the differential equation", "why_tests_cant": "It speaks of all times between the nodes, of the exact solutions of the differential equation and of an error constant that holds for all meshes; tests can compare two runs at sample points.", "anchors": ["mpopt/mpopt.py:mpopt.get_nlp_constraints_for_dynamics", "mpopt/mpopt.py:mpopt.get_nlp_constraints_for_path_contraints", "mpopt/mpopt.py:CollocationRoots.roots_legendre_gauss_radau"]}
{"id": "C70", "title": "The program does not depend on the coordinates of states, controls, parameters and time", "statement": "Write a problem in other coordinates: states, controls, parameters and time are affine, invertible functions of new ones (units, origins, signs, order, linear combinations), and all functions and bounds are rewritten accordingly. The two programs on the same mesh then have corresponding points: every point of one stands for the same trajectories as a point of the other; such points are feasible together and have the same objective, and one is a solution exactly if the other is. The scales of the two problems may be chosen independently. For coordinates that are not affine this fails: for x' = 1 and its logarithm the first program has a feasible point and the second none, on every mesh of equal segments of order 1.", "quantifier": "all pairs of problems related by an affine change of coordinates, all numbers of phases and links, meshes, schemes, decision vectors, widths and scales", "why_tests_cant": "It compares all points of the programs of two problems for all matrices of the change; tests solve one formulation with one choice of units.", "anchors": ["mpopt/mpopt.py:mpopt.discretize_phase", "mpopt/mpopt.py:mpopt.get_nlp_variables", "mpopt/mpopt.py:mpopt.get_event_constraints", "mpopt/mpopt.py:OCP"]}
{"id": "C71", "title": "Limits of feasible points are feasible, and programs with continuous functions and finite bounds have solutions", "statement": "If the functions of a problem are continuous, the objective of its program is continuous in the point and in the segment widths, and the limit of feasible points (for widths that tend to some widths) is feasible for the limit of the widths. If moreover all bounds of states, controls, times and parameters are numbers, every sequence of feasible points has a subsequence that tends to a feasible point, so a program with a feasible point has a best one. With the infinite bounds that are the default this fails (x' = u with final cost exp(x): every mesh of equal segments of order 1 has feasible points, no best one), and so it does with finite bounds and a final cost that jumps.", "quantifier": "all problems with continuous functions, all numbers of phases and links, meshes, schemes, sequences of points and of widths", "why_tests_cant": "It is about limits of infinite sequences of points and about all feasible points of a program; tests run a solver that stops after finitely many iterations.", "anchors": ["mpopt/mpopt.py:mpopt.create_nlp", "mpopt/mpopt.py:mpopt.discretize_phase", "mpopt/mpopt.py:mpopt.get_nlp_variables", "mpopt/mpopt.py:OCP"]}
{"id": "C72", "title": "Solutions of convex problems form a convex set; when there is only one", "statement": "For a convex problem with fixed end times, on every mesh and for every scheme: a mixture of two solutions of the program is a solution. If the running cost of a phase of positive length is strictly convex in the controls (states), two solutions have the same controls (states) at every node that has a positive weight in the objective, which is every node but the first one if the scheme is LGR and the first order is not 1. If it is strictly convex in both, there are no parameters and all nodes have a weight, the program has at most one solution. For LGR and a first order of 2 or more this fails: a strictly convex problem has solutions with every value of the first control. The cart of C60 has exactly one solution on every mesh of orders at least 4.", "quantifier": "all convex problems with fixed end times, all numbers of phases and links, meshes, schemes, pairs of solutions", "why_tests_cant": "It compares all solutions of a program, of which a solver returns one.", "anchors": ["mpopt/mpopt.py:mpopt.create_nlp", "mpopt/mpopt.py:mpopt.discretize_phase", "mpopt/mpopt.py:Collocation.get_quadrature_weights", "mpopt/mpopt.py:CollocationRoots"]}
{"id": "C73", "title": "The optimal cost of convex problems is a convex function of initial states and bounds", "statement": "Take two versions of a convex problem with fixed end times that differ only in the initial state and in the bounds of states, controls, parameters, control slopes and phase links. On every mesh and for every scheme, the mixture of a feasible point of the first with one of the second is feasible for the version whose initial state and bounds are the mixtures of theirs, and costs no more than the mixture of their costs. So the optimal cost is a convex function of initial state and bounds together, and of the initial state alone. Without a convex cost this fails on every mesh.", "quantifier": "all convex problems with fixed end times, pairs of initial states and bounds (finite or infinite), mixtures, numbers of phases and links, meshes, schemes, pairs of feasible points", "why_tests_cant": "It compares the solutions of three programs for all initial states and bounds; a test solves a few of them approximately.", "anchors": ["mpopt/mpopt.py:mpopt.create_nlp", "mpopt/mpopt.py:mpopt.discretize_phase", "mpopt/mpopt.py:mpopt.get_nlp_variables", "mpopt/mpopt.py:mpopt.get_event_constraints"]}
{"id": "C74", "title": "Bounds that a solution of a convex problem does not touch can be changed", "statement": "Let z be a solution of the program of a convex problem with fixed end times. Change bounds of states, controls, parameters, control slopes and phase links that z does not touch (at the nodes, at the midpoints where the control is bounded, and for the jumps at links), in any way that z still meets. Then z is a solution of the new program too, on every mesh and for every scheme: only the bounds that are reached matter. Without convexity this fails.", "quantifier": "all convex problems with fixed end times, numbers of phases and links, meshes, schemes, solutions, and changes of untouched bounds", "why_tests_cant": "It says of all points of a program that none is better; a test compares with the points a solver returns.", "anchors": ["mpopt/mpopt.py:mpopt.create_nlp", "mpopt/mpopt.py:mpopt.get_nlp_variables", "mpopt/mpopt.py:mpopt.get_event_constraints", "mpopt/mpopt.py:mpopt.discretize_phase"]}
{"id": "C75", "title": "Bounds of states and controls can be written as path constraints", "statement": "Take any problem, replace its bounds of states and controls by infinite ones and append to the path constraints of every phase one row per finite bound (lower bound minus value, value minus upper bound). The objective does not change, every feasible point that starts within the bounds of the states stays feasible, and every feasible point of the new program is feasible for the old one where the midpoint controls (if bounded) meet their bounds. Both restrictions are needed: the initial state is fixed to its given value whatever its bounds, so a problem may start outside of them; and path constraints are imposed at the nodes only, so midpoint controls may leave the bounds.", "quantifier": "all problems, numbers of phases, meshes, schemes, bounds (finite or not) and points", "why_tests_cant": "It compares the feasible sets of two programs for all points and bounds.", "anchors": ["mpopt/mpopt.py:mpopt.discretize_phase", "mpopt/mpopt.py:mpopt.get_nlp_constraints_for_path_contraints", "mpopt/mpopt.py:mpopt.get_nlp_variables", "mpopt/mpopt.py:mpopt.get_nlp_constrains_for_control_input_at_mid_colloc_points"]}
{"id": "C76", "title": "Linear problems: shape of the defects, and one-segment solutions carry over to finer meshes", "statement": "Let the right-hand sides be linear in states, controls and time (with coefficients that may depend on the parameters). For every feasible point, phase and segment, the derivative of the state polynomials minus the right-hand side along the polynomials is a constant times the product of (tau - node) over the nodes of the segment but the first one; on the first segment the constant is zero. Hence on a one-segment mesh every feasible point consists of node values of polynomials in time that satisfy the differential equation at all times. Where these meet the bounds and path constraints between the nodes too, their node values are feasible on every mesh and for every scheme whose orders are at least the given one; with a linear running cost they cost the same on one segment and on LGR meshes of orders at least 2, so without bounds of states and controls the optimal cost there is at most the optimal cost of one segment. Later segments need not satisfy the equation between the nodes, nor does one segment of a nonlinear problem.", "quantifier": "all linear problems, numbers of phases, meshes, schemes, scales and feasible points", "why_tests_cant": "It is about all times between the nodes, all feasible points and all finer meshes.", "anchors": ["mpopt/mpopt.py:mpopt.get_nlp_constraints_for_dynamics", "mpopt/mpopt.py:mpopt.get_discretized_dynamics_constraints_and_cost_matrices", "mpopt/mpopt.py:mpopt.discretize_phase", "mpopt/mpopt.py:mpopt.get_dynamics_residuals"]}
{"id": "C77", "title": "Start and end time turned into parameters on the unit interval", "statement": "Rewrite a problem so that time runs from 0 to 1, with start and end time as two more parameters that carry their old bounds and scale, dynamics and running cost multiplied by the duration, and all functions called with the old time. The new problem is well formed. For one phase, points with the same states, controls, parameters and times are feasible together and have the same objective; every point has a counterpart on the unit interval, every feasible point there is the counterpart of one; solutions correspond to solutions. With several phases the new problem has no feasible point at all, since links demand that the start time 0 of a phase is the end time 1 of another.", "quantifier": "all well-formed problems, meshes, schemes, scales, widths and points", "why_tests_cant": "It relates all points of two nonlinear programs, and the solutions among them.", "anchors": ["mpopt/mpopt.py:mpopt.discretize_phase", "mpopt/mpopt.py:mpopt.get_nlp_constraints_for_dynamics", "mpopt/mpopt.py:mpopt.get_event_constraints", "mpopt/mpopt.py:mpopt.create_nlp"]}
{"id": "C78", "title": "Objective and cost of the trajectory that the controls really lead to", "statement": "On LGR meshes with orders of at least 2, and on one-segment meshes, take any point of the program and trajectories within e of its state polynomials. The objective differs from the terminal cost plus the integral of the running cost along these trajectories by at most (Lm + Lr * duration) * e, with the Lipschitz constants of the two costs, plus C * ML * sum of (segment duration)^m, where m is 2 * order on LGR meshes and order + 2 on one segment, ML bounds derivative m - 1 of the running cost along the polynomials, and C depends on scheme and largest order only. For feasible points the trajectories can be those of the differential equation under the control polynomials, with e of the order of the segments. Not with several segments of order 1: constant dynamics and costs, cost 1, objective 1/2 + 1/(2 K) on K segments.", "quantifier": "all schemes, orders, meshes, widths, scales, problems with Lipschitz costs, points and trajectories", "why_tests_cant": "A bound with one constant for all problems, meshes and points, against exact trajectories and integrals that a run does not compute.", "anchors": ["mpopt/mpopt.py:mpopt.discretize_phase", "mpopt/mpopt.py:mpopt.get_nlp_constraints_for_dynamics", "mpopt/mpopt.py:mpopt.create_nlp", "mpopt/mpopt.py:Collocation.get_composite_quadrature_weights"]}
{"id": "C79", "title": "The trajectory that the controls lead to exists, and feasible points are near it", "statement": "If the dynamics of a phase are Lipschitz in the states and, under the control polynomials of each segment, continuous in time, then from every start state exactly one trajectory of the differential equation follows these controls over the whole phase, for any point of the program and all control polynomials. The squared distance of trajectories from two starts grows by a factor of at most exp(2 L t), already with a one-sided Lipschitz constant L. For feasible points the state polynomials are within C * M * eta * sqrt(...) of the trajectory from their first node (bound of C69), and, if the costs are Lipschitz and continuous too, the objective is near the cost of these trajectories (bound of C78). Not for every smooth right side: a feasible point with dynamics x' = (1 + x^2) u from whose start no trajectory follows the controls to the end.", "quantifier": "all schemes, orders, meshes, widths, scales, problems with Lipschitz right sides, points, control polynomials and starts", "why_tests_cant": "Existence and uniqueness of exact solutions of a differential equation, and bounds with one constant for all problems and meshes.", "anchors": ["mpopt/mpopt.py:mpopt.discretize_phase", "mpopt/mpopt.py:mpopt.get_nlp_constraints_for_dynamics", "mpopt/mpopt.py:mpopt.create_nlp"]}
{"id": "C80", "title": "Phases after the first, and links, can be numbered in any order", "statement": "If a problem is written with its phases in another order (functions, bounds, start values and switches moved along, phase_links renumbered and listed in any order with their jump bounds), but with the same first phase, then corresponding points of the two programs, with the mesh widths moved along, are feasible together, have the same objective, and one solves its program if and only if the other does. Every point and every list of widths has a counterpart. Not if another phase becomes the first: its first state is then fixed to x00 instead of bounded, also when a link leads into it.", "quantifier": "all problems with any number of phases, permutations of the phases, orders of the links, schemes, meshes, widths, scales and points", "why_tests_cant": "All permutations of any number of phases, and equality of the solution sets of two programs.", "anchors": ["mpopt/mpopt.py:mpopt.get_nlp_variables", "mpopt/mpopt.py:mpopt.get_event_constraints", "mpopt/mpopt.py:mpopt.create_nlp"]}
{"id": "C81", "title": "Every phase of a solution solves its own problem", "statement": "Take a solution of a program with any number of phases. The problem that has only one of these phases, starting at the state and time where the solution has this phase start, is well formed; the phase's part of the solution is feasible there, and no feasible point with the same values at the links (controls at the start if a link leads in; states, controls and time at the end if a link leads out) has a lower objective. A phase that no link touches solves its own problem. The last phase of a solution does not in general: links also fix its first controls, which the problem of the phase alone leaves free.", "quantifier": "all problems, phases, schemes, meshes, widths, scales, solutions and competing points", "why_tests_cant": "Optimality among all points of two programs.", "anchors": ["mpopt/mpopt.py:mpopt.create_nlp", "mpopt/mpopt.py:mpopt.get_event_constraints", "mpopt/mpopt.py:mpopt.get_nlp_variables"]}
{"id": "C82", "title": "Linear laws of the state equations are kept exactly", "statement": "If a fixed combination of the states (a total mass, say) has the same rate at all admitted states and controls, every point that meets the constraints has exactly the value that this rate gives, at all nodes and at all times between them, for every scheme, order and mesh. If the rate is only known to be at most some number, then with LGR nodes (or LGL nodes on one segment) and orders of at least 2 the combination grows at most at that rate from the start of any segment to the end of any later one. A sum of squares that the state equations keep is not kept in general.", "quantifier": "all problems, phases, schemes, orders, meshes, widths, points, laws; the second part for LGR (or LGL with one segment) and orders of at least 2", "why_tests_cant": "A statement about all meshes and all points, exact in real arithmetic.", "anchors": ["mpopt/mpopt.py:mpopt.get_nlp_constraints_for_dynamics", "mpopt/mpopt.py:CollocationRoots", "mpopt/mpopt.py:Collocation"]}
{"id": "C83", "title": "Nodes are determined by their scheme, and problems can be run backwards in time on one LGL or CGL segment", "statement": "Two numerical libraries that both return the roots of the Jacobi polynomials give the same nodes. LGL and CGL nodes, and their quadrature weights, are the same from both ends of a segment; LGR nodes of order 2 or more are not. On one segment of LGL or CGL nodes, a point of a problem of one phase meets its constraints and ends at the start of the reversed problem exactly when the reversed point meets the constraints of the reversed problem and ends at the start of the first, and both points cost the same. On two segments this is false.", "quantifier": "all orders, intervals, libraries that behave as documented; all problems of one phase and their reversals, all points", "why_tests_cant": "Symmetry and uniqueness of the roots hold for all orders in exact arithmetic; a test sees rounded roots of finitely many orders.", "anchors": ["mpopt/mpopt.py:CollocationRoots", "mpopt/mpopt.py:Collocation.get_quadrature_weights", "mpopt/mpopt.py:mpopt.get_nlp_constraints_for_dynamics", "mpopt/mpopt.py:mpopt.discretize_phase"]}
{"id": "C84", "title": "Two problems beside each other in one problem are solved independently when their times are given", "statement": "Let one problem have the states, controls, parameters, bounds and constraints of two others beside each other, phases that run at the same times, and the sum of their costs. A point of it meets its constraints exactly when its two parts meet those of their problems, and its objective is the sum of theirs. Solutions of the two problems that run at the same times form a solution of the joint problem. If a problem gives its start and end times, its part of a solution of the joint problem is a solution of it; with free times this is false.", "quantifier": "all pairs of problems with the same number of phases and links, all segment orders and schemes, all points", "why_tests_cant": "It relates three programs with different layouts of variables and constraints for all points; a test compares solver results for a few problems and tolerances.", "anchors": ["mpopt/mpopt.py:mpopt.create_nlp", "mpopt/mpopt.py:mpopt.discretize_phase", "mpopt/mpopt.py:mpopt.get_nlp_variables", "mpopt/mpopt.py:mpopt.get_event_constraints"]}
{"id": "C85", "title": "What the functions of a problem do outside its bounds does not matter", "statement": "Replace the state equations, constraints and costs of a problem by functions that give the same values for states, controls and parameters within the bounds, at the given initial state, and, for the state equations, where the path constraints hold. Then the same points meet the constraints, with the same objective, and the same points are solutions. Agreement within the bounds alone is not enough, as the initial state of the first phase may be outside them.", "quantifier": "all problems, functions, segment orders, schemes and points", "why_tests_cant": "It says that no value of a function outside the bounds influences feasibility or cost, for all functions; tests can only try some.", "anchors": ["mpopt/mpopt.py:mpopt.discretize_phase", "mpopt/mpopt.py:mpopt.get_nlp_variables", "mpopt/mpopt.py:mpopt.get_nlp_constraints_for_dynamics"]}
{"id": "C86", "title": "On fine meshes the controls determine the states", "statement": "For every scheme and largest order there is a constant C such that, if the state equations of a phase are Lipschitz in the state with constant L and every segment is shorter than 1/(C*L), two points that meet the constraints and have the same initial states, controls, parameters and times in the phase have the same states at all its nodes. On coarse meshes this fails: x' = x on two linear segments of length 1 has feasible points with the same start and controls but different final states.", "quantifier": "all schemes, problems with Lipschitz state equations, segment orders up to the largest, widths, and pairs of feasible points", "why_tests_cant": "It compares all pairs of feasible points, of all problems and meshes; a solver run finds one point.", "anchors": ["mpopt/mpopt.py:mpopt.get_nlp_constraints_for_dynamics", "mpopt/mpopt.py:mpopt.discretize_phase"]}
{"id": "C87", "title": "Which controls feasible points have", "statement": "All nodes of the first segment of a phase are collocated, one more than its order, so at a feasible point the derivatives that the state equations give there lie on polynomials of a degree below the order. When the states are free and only the costs depend on them, controls, times and parameters that meet the conditions on themselves belong to a feasible point if and only if this holds. So controls within their bounds cannot be chosen freely on the first segment.", "quantifier": "all problems, schemes, segment orders, widths and points", "why_tests_cant": "The equivalence says which control values are excluded and that no others are; a solver run shows one feasible point.", "anchors": ["mpopt/mpopt.py:mpopt.get_nlp_constraints_for_dynamics", "mpopt/mpopt.py:CollocationRoots.get_collocation_points"]}
{"id": "C88", "title": "A terminal cost can be measured on another scale", "statement": "If the terminal cost of one phase is the only cost of a problem, replacing it by a function of it leaves the feasible points as they are and turns the objective into that function of it. If the function is increasing on the objectives of feasible points, the same points are solutions. With a running cost besides, this fails.", "quantifier": "all problems with one terminal cost, functions, schemes, segment orders, widths and points", "why_tests_cant": "It compares the solutions of two programs over all points, for all functions.", "anchors": ["mpopt/mpopt.py:mpopt.discretize_phase", "mpopt/mpopt.py:mpopt.create_nlp"]}
{"id": "C89", "title": "Parameters with given values can be put into the functions", "statement": "If the bounds of the last parameters of a problem admit one value only in every phase, the problem with these parameters left out and their values put into its functions is equivalent: a point is feasible if and only if it has these values and the rest of it is feasible, with the same objective, and the same points are solutions. Values that are merely within the bounds cannot be put in.", "quantifier": "all problems, parameters, values, schemes, segment orders, widths and points", "why_tests_cant": "It compares two programs with different variables on all points.", "anchors": ["mpopt/mpopt.py:mpopt.get_nlp_variables", "mpopt/mpopt.py:mpopt.discretize_phase"]}
{"id": "C90", "title": "States depend on start and controls in a stable way", "statement": "For every collocation scheme and largest order there is a constant such that, when every segment is short compared with the Lipschitz constant of the state equations, the states of two feasible points with the same parameters and times of a phase differ at every node by at most a fixed multiple of the differences of their first states and of their controls. The multiple depends on the constant, the Lipschitz constants and the duration, and not on the number of segments or their widths. The bound for solutions of the state equations, without the constant of the scheme, does not hold.", "quantifier": "all problems, Lipschitz constants, schemes, segment orders up to the largest, widths and pairs of feasible points", "why_tests_cant": "It bounds pairs of feasible points on all meshes by one constant.", "anchors": ["mpopt/mpopt.py:mpopt.discretize_phase", "mpopt/mpopt.py:Collocation.get_diff_matrices"]}
{"id": "C91", "title": "Values and sparsity of the constraint rows", "statement": "The row of state s at a node is the scale of s times the slope of the polynomial through the values of s on the segment of the node, minus the time factor of the segment times the state equation at the node. It therefore depends on no other variables than the values of s on this segment, the states and controls at the node, and the times and parameters of the phase; a node shared by two segments belongs to the first of them. The row of a control at a mid-point depends on this control on its segment only. The times cannot be left out, even for state equations that do not depend on time.", "quantifier": "all problems, schemes, segment orders, widths, phases, rows and pairs of points", "why_tests_cant": "It compares all pairs of points that agree on some variables.", "anchors": ["mpopt/mpopt.py:mpopt.discretize_phase", "mpopt/mpopt.py:mpopt.get_nlp_constrains_for_control_input_at_mid_colloc_points"]}
{"id": "C92", "title": "Dissipative problems contract on every Radau mesh", "statement": "If the right sides of the state equations at two states never point from one state away from the other (dissipative), the distance of the states of two feasible points with the same times, parameters and controls of a phase does not grow from one end of a segment to a later one, however long the segments, for the LGR scheme of any orders and for segments of degree one. If the equations are strictly dissipative, the controls and the first states determine the states at all nodes, without a condition on the mesh. The distance can grow on Chebyshev nodes of degree two, and without dissipation.", "quantifier": "all problems with dissipative state equations, all orders, widths and pairs of feasible points", "why_tests_cant": "It compares all pairs of feasible points on all meshes, including coarse ones, where accuracy says nothing.", "anchors": ["mpopt/mpopt.py:mpopt.discretize_phase", "mpopt/mpopt.py:CollocationRoots.roots_legendre_gauss_radau"]}
{"id": "C93", "title": "Feasible points are damped on every Radau mesh", "statement": "If the right sides of the state equations, at states and controls within the bounds of a phase, never point away from a point e, the distance of the states of a feasible point from e does not grow from one end of a segment to a later one, however long the segments, for the LGR scheme of any orders and for segments of degree one. In the first phase it is at most the distance of the given start x00[0] from e. A distance that the equations keep need not be kept, and it can grow on Chebyshev nodes of degree two.", "quantifier": "all problems with such state equations, all points e, orders, widths, phases and feasible points", "why_tests_cant": "It bounds all feasible points on all meshes, including coarse ones.", "anchors": ["mpopt/mpopt.py:mpopt.discretize_phase", "mpopt/mpopt.py:mpopt.get_nlp_variables"]}
{"id": "C94", "title": "Segments of degree one keep every convex law", "statement": "A convex function of the states that the state equations do not increase, at states and controls within the bounds of a phase, is no larger at the end of a segment of order 1 of a feasible point than at its start, whatever the scheme and however long the segment. If all segments have order 1 it never grows from a node to a later one, and in the first phase it is at most its value at x00[0]; so sets such as half-spaces, boxes and balls that the equations do not leave are not left. This fails for order 2 on Chebyshev nodes, where a positive quantity that wanes in proportion to itself can become negative.", "quantifier": "all problems, convex functions, schemes, widths, phases and feasible points", "why_tests_cant": "It bounds all feasible points on all meshes with segments of order 1, for all convex functions.", "anchors": ["mpopt/mpopt.py:mpopt.discretize_phase", "mpopt/mpopt.py:mpopt.get_nlp_variables"]}
{"id": "C95", "title": "Strongly dissipative problems forget their start on every Radau mesh", "statement": "If the state equations draw any two states together at a rate mu or faster, the squared distance of the states of two feasible points with the same times, parameters and controls of a phase is divided by at least 1 + c mu d on every segment of duration d, and by at least 1 + c mu t over the segments that last t from the start of the phase. The positive constant c depends on the scheme and the largest order only, not on the problem or the mesh. This is for the LGR scheme of any orders and for segments of order 1. The exponential rate of the differential equation itself is not reached.", "quantifier": "all problems with such state equations, all orders, widths and pairs of feasible points", "why_tests_cant": "It gives one constant for all problems and all meshes, including coarse ones.", "anchors": ["mpopt/mpopt.py:mpopt.discretize_phase", "mpopt/mpopt.py:CollocationRoots.roots_legendre_gauss_radau"]}
{"id": "C96", "title": "Segments of order one divide distances of states by the sharp factor", "statement": "If the state equations drive any two states apart at a rate L or less, where L may be negative, then on a segment of order 1 and duration d with L d at most 1, the distance of the states of two feasible points with the same times, parameters and controls of a phase is at most divided by 1 - L d. This holds for every scheme, and there is a case with equality. Without the condition on L d the bound fails.", "quantifier": "all problems with such state equations, all schemes, widths and pairs of feasible points, all segments of order 1", "why_tests_cant": "It bounds all pairs of feasible points of all such problems, however stiff.", "anchors": ["mpopt/mpopt.py:mpopt.discretize_phase", "mpopt/mpopt.py:Collocation.get_diff_matrix"]}
