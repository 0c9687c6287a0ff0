{"id": "C01", "title": "Adding an interval to a sparsity pattern is set union and keeps the pattern canonical", "statement": "After Sparsity::add_interval(start, end) with start <= end on a pattern built by the API, a column i is covered iff it was covered before or start <= i <= end, and the stored intervals stay sorted, pairwise disjoint and non-empty.", "quantifier": "every history of add_interval calls (any number, any order, any integer bounds) and every column index", "why_tests_cant": "the interval list has unboundedly many shapes (nesting, overlap on either side, bridging many old intervals); tests visit a few", "anchors": ["src/placo/problem/sparsity.cpp: Sparsity::add_interval", "src/placo/problem/sparsity.h: Sparsity::intervals"]}
{"id": "C02", "title": "Sum of sparsity patterns is the union of columns", "statement": "(s1 + s2) covers exactly the columns covered by s1 or by s2 and is canonical; consequently + is commutative, associative and idempotent as a set of columns.", "quantifier": "all pairs of canonical patterns", "why_tests_cant": "two lists of arbitrary length interleaved arbitrarily", "anchors": ["src/placo/problem/sparsity.cpp: Sparsity::operator+"]}
{"id": "C03", "title": "Column-sparsity detection covers exactly the non-zero columns", "statement": "Sparsity::detect_columns_sparsity(M) covers column j iff some entry of column j is larger than 1e-12 in magnitude; the result is canonical, and no two stored intervals are adjacent.", "quantifier": "every real matrix of any size", "why_tests_cant": "all matrices / all run patterns of zero and non-zero columns", "anchors": ["src/placo/problem/sparsity.cpp: Sparsity::detect_columns_sparsity"]}
{"id": "C04", "title": "Decision variables of a problem occupy disjoint ranges that exactly tile the unknown vector", "statement": "After any sequence of add_variable (each of its own size) the variables' ranges [k_start,k_end) are consecutive, pairwise disjoint and tile [0,n_variables); clear_variables restarts at 0.", "quantifier": "every history of add_variable / clear_variables calls", "why_tests_cant": "histories of unbounded length and arbitrary sizes", "anchors": ["src/placo/problem/problem.cpp: Problem::add_variable, Problem::clear_variables", "src/placo/problem/variable.h: Variable"]}
{"id": "C05", "title": "A variable's expression reads exactly its own slice", "statement": "For 0 <= start, 0 <= rows, start+rows <= size, Variable::expr(start, rows) evaluated at any assignment x gives x[k_start+start .. +rows); default arguments mean 'from start to the end of the variable'. Any request outside the variable is not rejected: it is an out-of-range write (undefined behaviour).", "quantifier": "every variable position and size, every start/rows pair, every assignment", "why_tests_cant": "universally quantified sizes and values", "anchors": ["src/placo/problem/variable.cpp: Variable::expr", "src/placo/problem/variable.cpp: Variable::size"]}
{"id": "C06", "title": "Expression arithmetic commutes with evaluation", "statement": "For expressions over the same problem, the value of e1+e2, e1-e2, -e, k*e, e*k, M*e, e+v, v+e, e-v, v-e, e+f and f+e is the same arithmetic applied to the values, for every assignment; the number of unknowns each operand mentions may differ.", "quantifier": "all expressions (any rows, any columns), all scalars/vectors/matrices of compatible size, all assignments", "why_tests_cant": "algebraic law over all affine maps", "anchors": ["src/placo/problem/expression.cpp: Expression::operator+, operator-, operator*, left_multiply"]}
{"id": "C07", "title": "Row-count mismatches in expression sums are rejected and 1-row constants broadcast", "statement": "e1+e2 succeeds iff the row counts agree or one operand is a constant with one row (which is then added to every row of the other); otherwise it throws and never reads out of range.", "quantifier": "all pairs of expressions", "why_tests_cant": "all size combinations", "anchors": ["src/placo/problem/expression.cpp: Expression::operator+(const Expression&)"]}
{"id": "C08", "title": "vector minus expression has the mathematical sign", "statement": "v - e evaluates to v minus the value of e.", "quantifier": "all vectors and expressions of equal size, all assignments", "why_tests_cant": "universal algebraic law; the code returns the opposite sign, which a symmetric test does not see", "anchors": ["src/placo/problem/expression.cpp: operator-(const Eigen::VectorXd&, const Expression&)"]}
{"id": "C09", "title": "expression minus scalar subtracts the scalar from each row", "statement": "e - f (f a double) evaluates to value(e) with f subtracted from each row, for any number of rows, like e + f does.", "quantifier": "all expressions with any number of rows", "why_tests_cant": "row count is universally quantified; only the 1-row case works in the code", "anchors": ["src/placo/problem/expression.cpp: Expression::operator-(double), operator+(double)"]}
{"id": "C10", "title": "Product of expressions is defined exactly for scalar-times-constant", "statement": "e1*e2 succeeds iff one operand is constant (no columns) and the other has one row or the constant operand has one row, and then evaluates to the product of the one-row operand with each row of the other; all other products throw.", "quantifier": "all pairs of expressions, all assignments", "why_tests_cant": "all shapes", "anchors": ["src/placo/problem/expression.cpp: Expression::operator*(const Expression&)"]}
{"id": "C11", "title": "Stacking, slicing and summing expressions act on rows of the value", "statement": "(e1/e2) evaluates to the concatenation, slice(start,rows) to the selected rows, sum() to the sum of rows, piecewise_add(f) to adding f to every row, for every assignment.", "quantifier": "all expressions and in-range indices, all assignments", "why_tests_cant": "all sizes", "anchors": ["src/placo/problem/expression.cpp: operator/, Expression::slice, Expression::sum, Expression::piecewise_add"]}
{"id": "C12", "title": "mean() evaluates to the arithmetic mean of the rows", "statement": "e.mean() evaluates to (sum of the rows of value(e)) / (number of rows).", "quantifier": "all expressions with at least one row, all assignments", "why_tests_cant": "universal algebraic law; code divides by the number of columns", "anchors": ["src/placo/problem/expression.cpp: Expression::mean"]}
{"id": "C13", "title": "Comparison operators build constraints with the meaning they are written with", "statement": "Each overload of >=, <= and == on expression/expression, expression/vector, vector/expression, expression/double, double/expression builds a constraint that is satisfied by x (every row of A x + b is >= 0, resp. = 0) iff the written comparison holds row-wise at x.", "quantifier": "all operands of compatible size, all assignments", "why_tests_cant": "all affine maps and assignments; sign errors are invisible on symmetric data", "anchors": ["src/placo/problem/expression.cpp: operator>=, operator<=, operator==", "src/placo/problem/constraint.h: ProblemConstraint"]}
{"id": "C14", "title": "add_limit bounds the absolute value of every row", "statement": "The constraint created by Problem::add_limit(e, target) is satisfied at x iff |value(e,x)_i| <= target_i for every row i; mismatched row counts throw.", "quantifier": "all expressions, targets, assignments", "why_tests_cant": "all affine maps", "anchors": ["src/placo/problem/problem.cpp: Problem::add_limit"]}
{"id": "C15", "title": "Soft equality constraints contribute exactly their weighted squared residual to the cost", "statement": "With use_sparsity off and no rewriting, the quadratic cost assembled by solve equals, up to a constant independent of x, (1/2) sum over soft equalities of weight*||A x + b||^2 + (regularization/2)||x||^2.", "quantifier": "every list of constraints and variables, all x", "why_tests_cant": "all lists of constraints of any length and size", "anchors": ["src/placo/problem/problem.cpp: Problem::solve"]}
{"id": "C16", "title": "The use_sparsity optimisation does not change the problem being solved", "statement": "Turning use_sparsity on or off yields the same quadratic cost.", "quantifier": "every list of constraints", "why_tests_cant": "equality of two computations over all inputs; the code drops cross terms between non-adjacent column blocks", "anchors": ["src/placo/problem/problem.cpp: Problem::solve (use_sparsity branch)", "src/placo/problem/sparsity.cpp: Sparsity::detect_columns_sparsity"]}
{"id": "C17", "title": "Hard inequalities are passed to the QP solver unchanged and slack rows keep slacks non-negative", "statement": "The inequality system given to the QP solver is satisfied by (x, s) iff s >= 0 and A x + b >= 0 holds for every hard inequality.", "quantifier": "every list of constraints, all (x,s)", "why_tests_cant": "all lists of constraints", "anchors": ["src/placo/problem/problem.cpp: Problem::solve"]}
{"id": "C18", "title": "Soft inequalities penalise only violations", "statement": "For fixed x, minimising the assembled cost over the slacks s >= 0 gives the cost (1/2) weight * sum_i min(0,(A x+b)_i)^2 for each soft inequality (up to the slack regularization), i.e. zero when the inequality holds.", "quantifier": "every list of constraints, all x", "why_tests_cant": "optimum over a continuum of slacks", "anchors": ["src/placo/problem/problem.cpp: Problem::solve"]}
{"id": "C19", "title": "Equality elimination by QR describes exactly the feasible set", "statement": "With rewrite_equalities on, assuming the QR factorisation meets its contract, the reduced parametrisation maps onto exactly the set of x satisfying all hard equalities: every recomposed x is feasible and every feasible x is recomposed from a unique reduced vector.", "quantifier": "all full-row-rank equality systems, all reduced vectors", "why_tests_cant": "a bijection between continua", "anchors": ["src/placo/problem/problem.cpp: Problem::get_constraint_expressions, Problem::solve"]}
{"id": "C20", "title": "Solve returns an optimum of the problem the user wrote", "statement": "If the QP back-end returns an optimum of the QP it is given, then the x stored by a successful solve satisfies every hard constraint and no other x satisfying them has a smaller cost (cost as in C15/C18 with slacks), with and without equality rewriting.", "quantifier": "every problem (any constraints, priorities, weights, sizes)", "why_tests_cant": "optimality against a continuum of competitors for all problems", "anchors": ["src/placo/problem/problem.cpp: Problem::solve"]}
{"id": "C21", "title": "A failed solve never updates variable values", "statement": "If solve throws, no variable's value or version changed; if it returns, every variable's version increased by exactly one and its value is its slice of x.", "quantifier": "every problem and every back-end outcome (including infeasible, NaN, inconsistent sizes)", "why_tests_cant": "all failure points", "anchors": ["src/placo/problem/problem.cpp: Problem::solve", "src/placo/problem/variable.h: Variable::version, Variable::value"]}
{"id": "C22", "title": "Solutions that violate hard equalities or contain NaN are never returned as success", "statement": "Whatever the QP back-end returns, a successful solve implies every hard equality residual row is within 1e-6 (when equalities were not rewritten, or rewritten) and no entry of x is NaN.", "quantifier": "every back-end answer", "why_tests_cant": "adversarial oracle answers", "anchors": ["src/placo/problem/problem.cpp: Problem::solve"]}
{"id": "C23", "title": "Active-set reporting is faithful", "statement": "After a successful solve, is_active of a hard inequality is true iff at least one of its own rows is in the back-end's active set, and of a soft inequality iff one of its slacks is at most 1e-6 (all its own slack, none of another constraint's).", "quantifier": "every list of constraints and every active set", "why_tests_cant": "index arithmetic over all lists", "anchors": ["src/placo/problem/problem.cpp: Problem::solve"]}
{"id": "C24", "title": "Ill-formed constraints are reported as QPError", "statement": "A constraint mentioning unknowns that do not exist, with no rows, or with A and b of different heights makes solve throw QPError (never undefined behaviour).", "quantifier": "every problem containing an ill-formed constraint, at any position", "why_tests_cant": "all positions, kinds and priorities; hard equalities are written before being checked", "anchors": ["src/placo/problem/problem.cpp: Problem::solve"]}
{"id": "C25", "title": "Integrator state expressions equal the simulated discrete system", "statement": "For every 0 <= step <= N and 0 <= diff < order, value of expr(step,diff) at assignment u is component diff of the state obtained by iterating X <- A X + B u_k from X0 for step iterations; step = -1 means N.", "quantifier": "every order, every number of steps, every initial state and input sequence", "why_tests_cant": "induction over the number of steps", "anchors": ["src/placo/problem/integrator.cpp: Integrator::Integrator, Integrator::expr", "src/placo/problem/integrator.h: Integrator"]}
{"id": "C26", "title": "Requesting any documented step and derivative order is safe", "statement": "expr(step, diff) for 0 <= step <= N and 0 <= diff <= order returns an expression, and anything else throws; in no case is memory accessed out of range.", "quantifier": "all step/diff/N/order", "why_tests_cant": "boundary combination step = N, diff = order", "anchors": ["src/placo/problem/integrator.cpp: Integrator::expr, Integrator::check_diff"]}
{"id": "C27", "title": "Integrator trajectories are continuous and pass through the key-frames", "statement": "Trajectory::value(t, diff) at t = t_start + k*dt equals the k-th simulated state, is continuous across key-frames for diff < order, and agrees with expr_t(t,diff) for times inside the horizon.", "quantifier": "all times, orders, steps, inputs", "why_tests_cant": "continuum of times", "anchors": ["src/placo/problem/integrator.cpp: Integrator::Trajectory::value, Integrator::expr_t, Integrator::update_trajectory"]}
{"id": "C28", "title": "Trajectory::duration is the length of the horizon", "statement": "get_trajectory().duration() equals N*dt.", "quantifier": "all N and dt", "why_tests_cant": "universal; the implementation counts key-frames", "anchors": ["src/placo/problem/integrator.cpp: Integrator::Trajectory::duration"]}
{"id": "C29", "title": "Integrator trajectories always reflect the last solve", "statement": "value()/get_trajectory() throw before the first successful solve of the variable, and afterwards return the trajectory simulated with the variable's current value, whatever the interleaving of solves and queries; repeated queries without a solve return the same trajectory.", "quantifier": "every interleaving of solve and query", "why_tests_cant": "histories", "anchors": ["src/placo/problem/integrator.cpp: Integrator::update_trajectory, Integrator::value"]}
{"id": "C30", "title": "Polynom::value(t, d) is the d-th derivative", "statement": "Polynom(c).value(t,d) is the d-th derivative at t of the polynomial with coefficients c (highest degree first), for every d including d > degree (zero).", "quantifier": "all coefficient vectors, degrees, orders, t", "why_tests_cant": "all degrees and reals", "anchors": ["src/placo/tools/polynom.cpp: Polynom::value, Polynom::derivative_coefficient"]}
{"id": "C31", "title": "ProblemPolynom expressions agree with the polynomial they define", "statement": "value of ProblemPolynom::expr(t, d) at the solution equals get_polynom().value(t, d).", "quantifier": "all degrees, t, d, assignments", "why_tests_cant": "all degrees and reals", "anchors": ["src/placo/problem/problem_polynom.cpp: ProblemPolynom::expr, ProblemPolynom::get_polynom"]}
{"id": "C32", "title": "Polygon constraint holds iff the point keeps the margin to every edge", "statement": "in_polygon_xy(e, polygon, margin) is satisfied at x iff the point value(e,x) lies on the inner side of each edge line of the clockwise polygon at distance at least margin; expressions without exactly two rows are rejected.", "quantifier": "all polygons (any vertex count, non-degenerate edges), margins, points", "why_tests_cant": "continuum of points and polygons", "anchors": ["src/placo/problem/polygon_constraint.cpp: PolygonConstraint::in_polygon_xy, PolygonConstraint::in_polygon"]}
{"id": "C33", "title": "Cubic splines interpolate and are C1", "statement": "For points added with strictly increasing times, pos(t_k)=x_k, vel(t_k)=dx_k, between points the curve is a cubic with these boundary conditions, pos and vel are continuous, and outside the range they are clamped to the end points.", "quantifier": "all point lists, all t", "why_tests_cant": "continuum of times, unbounded number of points", "anchors": ["src/placo/tools/cubic_spline.cpp: CubicSpline::interpolation, CubicSpline::fit, CubicSpline::compute_splines"]}
{"id": "C34", "title": "Spline points are strictly increasing in time; a rejected point changes nothing", "statement": "add_point throws iff t is not greater than the last time, and then leaves the spline unchanged; hence in every reachable spline the times are strictly increasing.", "quantifier": "every history of add_point/clear/queries", "why_tests_cant": "histories", "anchors": ["src/placo/tools/cubic_spline.cpp: CubicSpline::add_point, CubicSpline::clear"]}
{"id": "C35", "title": "Angular splines never take the long way round", "statement": "In an angular spline consecutive stored values differ by at most pi and each stored value is congruent modulo 2*pi to the value given.", "quantifier": "every history of add_point on an angular spline", "why_tests_cant": "induction over the history", "anchors": ["src/placo/tools/cubic_spline.cpp: CubicSpline::add_point", "src/placo/tools/utils.cpp: wrap_angle"]}
{"id": "C36", "title": "CubicSpline::duration covers the points", "statement": "Once two points were added, duration() returns the time of the last point minus the time of the first one.", "quantifier": "every interleaving of add_point, clear, queries and duration", "why_tests_cant": "order of calls: lazily computed data is read without being refreshed", "anchors": ["src/placo/tools/cubic_spline.cpp: CubicSpline::duration"]}
{"id": "C37", "title": "wrap_angle returns the representative in (-pi, pi]", "statement": "wrap_angle(a) lies in (-pi, pi], differs from a by an integer multiple of 2*pi, and is idempotent.", "quantifier": "all real angles", "why_tests_cant": "all reals", "anchors": ["src/placo/tools/utils.cpp: wrap_angle"]}
{"id": "C38", "title": "safe_acos is total and agrees with acos", "statement": "safe_acos(x) is acos(x) on [-1,1], 0 above 1 and pi below -1, hence always in [0,pi].", "quantifier": "all reals", "why_tests_cant": "all reals", "anchors": ["src/placo/tools/utils.cpp: safe_acos"]}
{"id": "C39", "title": "Segment intersection parameters are correct", "statement": "For non-parallel segments the two parameters returned place the same point on both lines; intersects() is true iff the closed segments share a point; lines_intersection() returns the unique common point of the lines.", "quantifier": "all pairs of non-degenerate, non-parallel segments", "why_tests_cant": "continuum", "anchors": ["src/placo/tools/segment.cpp: Segment::get_lambdas, Segment::intersects, Segment::lines_intersection, Segment::line_pass_through"]}
{"id": "C40", "title": "half_line_pass_through tests the half-line of the object against the argument segment", "statement": "s1.half_line_pass_through(s2) is true iff the half-line starting at s1.start through s1.end meets the segment s2 (header documentation).", "quantifier": "all pairs of segments", "why_tests_cant": "continuum; roles are swapped in the code", "anchors": ["src/placo/tools/segment.cpp: Segment::half_line_pass_through", "src/placo/tools/segment.h: Segment"]}
{"id": "C41", "title": "Axis masks select exactly the requested rows", "statement": "After set_axises(axises, frame), apply(M) returns the rows of M (rotated to the chosen frame) named by the string, in x,y,z index order of insertion, case-insensitively; invalid letters or frame names throw.", "quantifier": "all strings, all matrices with three rows", "why_tests_cant": "all strings", "anchors": ["src/placo/tools/axises_mask.cpp: AxisesMask::set_axises, AxisesMask::apply"]}
{"id": "C42", "title": "A rejected configuration changes nothing", "statement": "If AxisesMask::set_axises or Prioritized::configure throws, the object is unchanged.", "quantifier": "all objects and invalid arguments", "why_tests_cant": "all prior states", "anchors": ["src/placo/tools/axises_mask.cpp: AxisesMask::set_axises", "src/placo/tools/prioritized.cpp: Prioritized::configure"]}
{"id": "C43", "title": "flatten_on_floor keeps x, y and yaw and is idempotent", "statement": "flatten_on_floor(T) has z = 0, the same x,y, rotation purely about z; applying it twice is the same as once.", "quantifier": "all rigid transforms whose x axis is not vertical", "why_tests_cant": "continuum of poses", "anchors": ["src/placo/tools/utils.cpp: flatten_on_floor, frame_yaw"]}
{"id": "C44", "title": "interpolate_frames hits both ends", "statement": "interpolate_frames(A,B,0)=A, interpolate_frames(A,B,1)=B, and its translation is the linear interpolation.", "quantifier": "all pairs of poses, all ratios", "why_tests_cant": "continuum", "anchors": ["src/placo/tools/utils.cpp: interpolate_frames"]}
{"id": "C45", "title": "Step clipping yields an allowed step in the same direction and is idempotent", "statement": "ellipsoid_clip(step) lies within the (asymmetric) ellipsoid of maximal steps, is step scaled by a factor in (0,1], is step itself when allowed; likewise box_clip (L1 ball) and conic_clip.", "quantifier": "all steps, all positive parameter sets", "why_tests_cant": "continuum", "anchors": ["src/placo/humanoid/humanoid_parameters.cpp: ellipsoid_clip, box_clip, conic_clip"]}
{"id": "C46", "title": "Opposite-foot frames are mirror images at the feet spacing", "statement": "opposite_frame(side, T, d_x,d_y,d_theta) places the other foot at feet_spacing laterally plus the offset; with zero offsets, taking the opposite of the opposite returns T; neutral_frame is the same for both feet of a neutral stance.", "quantifier": "all poses, sides, parameters", "why_tests_cant": "continuum", "anchors": ["src/placo/humanoid/humanoid_parameters.cpp: opposite_frame, neutral_frame"]}
{"id": "C47", "title": "Footstep polygons are the rectangle around the foot frame, clockwise", "statement": "support_polygon of a footstep has the four corners at +-length/2, +-width/2 in the foot frame, listed clockwise; polygon_contains is true iff the point is inside the polygon.", "quantifier": "all foot poses (yaw rotations), sizes, points", "why_tests_cant": "continuum", "anchors": ["src/placo/humanoid/footsteps_planner.cpp: Footstep::compute_polygon, Footstep::polygon_contains"]}
{"id": "C48", "title": "Support polygons always correspond to the current frame", "statement": "support_polygon() of a footstep produced by the planner API equals the polygon computed from its frame.", "quantifier": "every history of API calls (queries and copies)", "why_tests_cant": "cache invalidation over histories", "anchors": ["src/placo/humanoid/footsteps_planner.cpp: Footstep::support_polygon, FootstepsPlanner::opposite_footstep"]}
{"id": "C49", "title": "Footstep overlap test is complete", "statement": "overlap(f1,f2) is true iff the two rectangles intersect.", "quantifier": "all pairs of footsteps", "why_tests_cant": "continuum; crossing rectangles without contained vertices are missed", "anchors": ["src/placo/humanoid/footsteps_planner.cpp: Footstep::overlap"]}
{"id": "C50", "title": "clipped_opposite_footstep respects spacing and step limits", "statement": "The returned footstep is on the other side; its motion relative to the idle placement is the request (moved outwards by dtheta_spacing*|dtheta|), clipped by the configured clipping and multiplied by 0.9^j with j <= 32, so it is an allowed step; j is the first power for which the feet do not overlap with a 1 cm margin, or 32 (where they may overlap).", "quantifier": "all requests, footsteps and parameters", "why_tests_cant": "continuum and loop", "anchors": ["src/placo/humanoid/footsteps_planner.cpp: FootstepsPlanner::clipped_opposite_footstep"]}
{"id": "C51", "title": "make_supports produces an alternating, connected walk", "statement": "From n > 2 footsteps, make_supports(start, middle, end) yields single supports for the footsteps 1..n-2 in order (and 0 when no start double support is asked for), double supports exactly where requested (start, between steps if middle, end), each phase moves a single foot with respect to the previous one, only the first/last are flagged start/end and only when asked for. Two footsteps give one double support.", "quantifier": "all footstep lists, all flags", "why_tests_cant": "lists of unbounded length", "anchors": ["src/placo/humanoid/footsteps_planner.cpp: FootstepsPlanner::make_supports"]}
{"id": "C52", "title": "Repetitive planner emits exactly the requested number of alternating steps", "statement": "After configure(.., n) with n >= 1, plan returns the two initial feet followed by n steps alternating sides beginning with the flying side; the first n-1 have the configured motion (clipped), the last one brings the feet together.", "quantifier": "all n, poses, parameters", "why_tests_cant": "induction on n", "anchors": ["src/placo/humanoid/footsteps_planner_repetitive.cpp: FootstepsPlannerRepetitive::plan_impl"]}
{"id": "C53", "title": "Naive planner terminates and alternates sides", "statement": "plan returns after at most max_steps iterations, its steps alternate sides, and consecutive steps respect the accessibility box.", "quantifier": "all start and target poses, all parameters", "why_tests_cant": "loop over a continuum of states", "anchors": ["src/placo/humanoid/footsteps_planner_naive.cpp: FootstepsPlannerNaive::plan_impl"]}
{"id": "C54", "title": "Trajectory queries find the part that contains the time", "statement": "For a planned trajectory with contiguous parts, every query at t uses a part whose [t_start,t_end] contains t (first part before the start, last part after the end); the search always terminates.", "quantifier": "all numbers of parts, all times", "why_tests_cant": "binary search over lists of unbounded length", "anchors": ["src/placo/humanoid/walk_pattern_generator.cpp: WalkPatternGenerator::Trajectory::_findPart"]}
{"id": "C55", "title": "Planned parts are contiguous in time and follow the supports", "statement": "plan produces one part per support, in order, with part k+1 starting when part k ends, each lasting the support's default duration, and trajectory.t_end the end of the last one.", "quantifier": "all support lists", "why_tests_cant": "induction over the list", "anchors": ["src/placo/humanoid/walk_pattern_generator.cpp: WalkPatternGenerator::plan_com, support_default_duration, support_default_timesteps"]}
{"id": "C56", "title": "Trajectory getters do not modify the trajectory", "statement": "get_support, get_next_support, get_prev_support, get_supports and the kinematic getters leave the trajectory unchanged.", "quantifier": "all trajectories, times and n", "why_tests_cant": "aliasing through references over all states", "anchors": ["src/placo/humanoid/walk_pattern_generator.cpp: WalkPatternGenerator::Trajectory::get_prev_support, get_next_support"]}
{"id": "C57", "title": "Foot velocity getters work at every time of the trajectory", "statement": "get_v_world_left/right(t) return a value for every t of a planned trajectory (zero when the foot is in support).", "quantifier": "all times", "why_tests_cant": "all supports incl. double support", "anchors": ["src/placo/humanoid/walk_pattern_generator.cpp: WalkPatternGenerator::Trajectory::get_v_world_foot"]}
{"id": "C58", "title": "Swing foot trajectories start and land exactly with zero velocity", "statement": "SwingFoot::make_trajectory starts at the start position and ends at the target, with zero velocity at both, is at the given height at a quarter and three quarters of the flight, and vel is the derivative of pos. After any sequence of remake_trajectory the position and the velocity are kept at each junction and the foot lands at the last target. (False for the vertical velocity, which is not zero at both ends, and for the height of a new target, which is ignored.)", "quantifier": "all start and target positions, heights, times, sequences of corrections", "why_tests_cant": "continuum; unbounded sequence of corrections", "anchors": ["src/placo/humanoid/swing_foot.cpp: SwingFoot::make_trajectory, SwingFoot::remake_trajectory, pos, vel"]}
{"id": "C59", "title": "SwingFootCubic lifts, holds and lands as parameterised", "statement": "For a step of positive duration that is not over, make_trajectory succeeds exactly when rise_ratio < 1 and throws otherwise. The trajectory starts at the given position and velocity, ends at the target at rest when the step ends, is continuous with its velocity, is at the given (absolute) height during the plateau of duration rise_ratio * duration centred on the step as far as it is still ahead; from rest it goes straight to the target seen from above and stays between the lowest and highest of the three heights.", "quantifier": "all parameters, elapsed ratios and times", "why_tests_cant": "continuum", "anchors": ["src/placo/humanoid/swing_foot_cubic.cpp: SwingFootCubic::make_trajectory, pos, vel"]}
{"id": "C60", "title": "DCM and ZMP reported by the LIPM satisfy the inverted-pendulum equations", "statement": "A LIPM, or a chain of LIPMs each built from the previous one, is a point moved by piecewise constant jerks: its expressions are the position, velocity, acceleration, jerk, dcm = com + vel/omega, zmp = com - acc/omega^2 and the derivative of the zmp after each step; after a successful solve the trajectory has the same values at the same times, position, velocity and acceleration are continuous and derivatives of one another, d(dcm)/dt = omega (dcm - zmp), and consecutive trajectories join without a jump. (False for dzmp of the trajectory, whose sign differs.)", "quantifier": "all chains of LIPMs, timesteps, times, omegas, solutions of the problem", "why_tests_cant": "continuum; algebra for all inputs; unbounded chains", "anchors": ["src/placo/humanoid/lipm.cpp: LIPM, LIPM::Trajectory, LIPM::compute_omega"]}
{"id": "C61", "title": "Footstep / support side and frame queries are consistent", "statement": "side() of a single support is its foot's side and throws for a double support; footstep_frame(side) returns the frame of that foot or throws if absent; frame() of a single support is the foot frame.", "quantifier": "all supports", "why_tests_cant": "all lists", "anchors": ["src/placo/humanoid/footsteps_planner.cpp: FootstepsPlanner::Support"]}
{"id": "C62", "title": "Kinematics solutions respect masks and limits", "statement": "If the QP back-end is correct, a returned delta has zero on masked dofs, zero on the floating base when masked, keeps q+delta within joint limits when enabled and |delta| <= dt*v_max when velocity limits are enabled.", "quantifier": "all robots, states, tasks, masks", "why_tests_cant": "all states", "anchors": ["src/placo/kinematics/kinematics_solver.cpp: KinematicsSolver::solve, compute_limits_inequalities, mask_dof, mask_fbase"]}
{"id": "C63", "title": "Scaled tasks are followed in direction with a common factor in [0,1]", "statement": "With scaled tasks the returned delta satisfies A delta = s*b for each scaled task with the same s in [0,1], reported as solver.scale; hard tasks satisfy A delta = b.", "quantifier": "all sets of tasks", "why_tests_cant": "all tasks", "anchors": ["src/placo/kinematics/kinematics_solver.cpp: KinematicsSolver::solve"]}
{"id": "C64", "title": "A failed kinematics solve leaves the robot untouched, a successful one applies exactly the delta", "statement": "If solve(apply) throws, robot.state is unchanged; if it succeeds with apply, q is the integration of delta and, when dt > 0, qd and qdd are the corresponding finite differences; without apply robot.state is unchanged.", "quantifier": "all failure points and states", "why_tests_cant": "all failure points", "anchors": ["src/placo/kinematics/kinematics_solver.cpp: KinematicsSolver::solve"]}
{"id": "C65", "title": "Gear and joints tasks are exact after one step", "statement": "If a joints task is solved exactly then q+delta equals the target for each joint; if a gear task is solved exactly then after the step q_target = sum ratio*q_source for each gear; set_gear replaces only the gear of its own target.", "quantifier": "all joint/gear maps and states", "why_tests_cant": "all maps", "anchors": ["src/placo/kinematics/gear_task.cpp: GearTask", "src/placo/kinematics/joints_task.cpp: JointsTask"]}
{"id": "C66", "title": "Solvers own and free exactly what they created", "statement": "In every history of add/remove/clear, objects created by the solver are freed exactly once, user-owned objects are never freed, and removed tasks are no longer in the solver.", "quantifier": "every history of add_*, remove_*, clear on both solvers", "why_tests_cant": "histories; memory safety", "anchors": ["src/placo/kinematics/kinematics_solver.cpp: remove_task, clear", "src/placo/dynamics/dynamics_solver.cpp: remove_task, clear"]}
{"id": "C67", "title": "Dynamics results satisfy the equation of motion", "statement": "On success M qdd + b = tau + tau_contacts where b are the bias terms plus extra_force (as documented on Result), tau_contacts being the sum of J^T f of the active contacts, for any number of contacts.", "quantifier": "all robots, states, contacts", "why_tests_cant": "all contact lists", "anchors": ["src/placo/dynamics/dynamics_solver.cpp: DynamicsSolver::solve", "src/placo/dynamics/dynamics_solver.h: DynamicsSolver::Result"]}
{"id": "C68", "title": "Dynamics solutions respect torque, velocity and joint limits", "statement": "If the back-end is correct, enabled torque limits bound |tau| by the (possibly overridden) limit, velocity limits bound |qd + dt qdd|, velocity-vs-torque limits hold, and joint limits keep the velocity below the braking velocity (or accelerate away when beyond); floating-base torque is zero unless masked.", "quantifier": "all robots and states", "why_tests_cant": "all states", "anchors": ["src/placo/dynamics/dynamics_solver.cpp: DynamicsSolver::compute_limits_inequalities"]}
{"id": "C69", "title": "Unilateral contacts yield physically valid wrenches", "statement": "For unilateral point and planar contacts a feasible wrench has non-negative normal force, tangential forces within mu*normal, and (planar) a ZMP within the contact rectangle.", "quantifier": "all wrenches, parameters and surface orientations", "why_tests_cant": "continuum", "anchors": ["src/placo/dynamics/contacts.cpp: PointContact::add_constraints, Contact6D::add_constraints, Contact6D::zmp"]}
{"id": "C70", "title": "Tangential force weights penalise tangential forces", "statement": "weight_tangentials on a planar contact penalises exactly the forces tangential to the surface (x and y).", "quantifier": "all wrenches", "why_tests_cant": "algebra; wrong slice in the code", "anchors": ["src/placo/dynamics/contacts.cpp: Contact6D::add_constraints"]}
{"id": "C71", "title": "Line contacts can be used", "statement": "Adding a unilateral line contact (with length set) to a solve creates well-formed constraints.", "quantifier": "all states", "why_tests_cant": "no test covers it; index/size mismatch for every state", "anchors": ["src/placo/dynamics/contacts.cpp: LineContact::add_constraints, LineContact::zmp"]}
{"id": "C72", "title": "Dynamics solve failure is reported and leaves the robot state unchanged", "statement": "solve returns success=false exactly when the QP fails; then robot.state is unchanged; with integrate and dt=0 it throws without modifying robot.state.", "quantifier": "all failure points", "why_tests_cant": "all failure points", "anchors": ["src/placo/dynamics/dynamics_solver.cpp: DynamicsSolver::solve"]}
{"id": "C73", "title": "Acceleration-level tasks impose second-order error dynamics", "statement": "After a successful solve, if the robot moves with the accelerations of the result, the error of a hard position, relative position, CoM, joints or gear task obeys error'' = -kp*error - kd*error', with kd = 2 sqrt(kp) (critical damping) when kd is negative; an orientation task imposes the angular acceleration given by the same law on the logarithm of the rotation error; a critically damped error tends to zero.", "quantifier": "all robots, motions, gains, targets with their velocities and accelerations, masks, and other tasks, contacts and constraints of the solver", "why_tests_cant": "the second derivative of the error along every motion, for every Jacobian", "anchors": ["src/placo/dynamics/task.cpp: Task::get_kd", "src/placo/dynamics/joints_task.cpp: JointsTask::update", "src/placo/dynamics/position_task.cpp: PositionTask::update", "src/placo/dynamics/gear_task.cpp: GearTask::update", "src/placo/dynamics/orientation_task.cpp: OrientationTask::update", "src/placo/dynamics/com_task.cpp: CoMTask::update", "src/placo/dynamics/relative_position_task.cpp: RelativePositionTask::update"]}
{"id": "C74", "title": "Placing the robot by a frame puts that frame at the target", "statement": "If kinematics are up to date, after set_T_world_frame(frame, T) and update_kinematics, get_T_world_frame(frame) = T for every frame carried by the robot, all relative poses between the frames of the robot are unchanged, and so are the joints and velocities. (The frame \"universe\" is accepted although it cannot be placed.)", "quantifier": "all robots, states, frames, targets", "why_tests_cant": "all robots, configurations and targets", "anchors": ["src/placo/model/robot_wrapper.cpp: RobotWrapper::set_T_world_frame, get_T_world_frame, get_T_a_b, set_T_world_fbase, get_T_world_fbase"]}
{"id": "C75", "title": "Joint accessors are independent", "statement": "get_joint after set_joint returns the value; other joints, velocities and accelerations are unaffected; likewise velocities, accelerations and limits; unknown names throw.", "quantifier": "all joint names, histories", "why_tests_cant": "all joints/histories", "anchors": ["src/placo/model/robot_wrapper.cpp: RobotWrapper::set_joint, get_joint, set_joint_velocity, get_joint_offset, get_joint_v_offset"]}
{"id": "C76", "title": "Static gravity compensation requires no base torque", "statement": "The first six entries of static_gravity_compensation_torques are zero whenever the contact frame's base Jacobian is invertible, and the remaining ones balance gravity with the contact wrench.", "quantifier": "all robots and states", "why_tests_cant": "all states", "anchors": ["src/placo/model/robot_wrapper.cpp: RobotWrapper::static_gravity_compensation_torques"]}
{"id": "C77", "title": "Walk task errors report each task's own error", "statement": "get_tasks_error returns, for each foot, the orientation error under the orientation keys and the position error under the position keys.", "quantifier": "all states", "why_tests_cant": "key collision for all states", "anchors": ["src/placo/humanoid/walk_tasks.cpp: WalkTasks::get_tasks_error"]}
{"id": "C78", "title": "Switching between CoM and trunk control keeps exactly one of the two tasks", "statement": "After any sequence of update_com_task calls with trunk_mode toggled, exactly one of com_task/trunk_task exists in the solver.", "quantifier": "every history of toggles", "why_tests_cant": "histories", "anchors": ["src/placo/humanoid/walk_tasks.cpp: WalkTasks::update_com_task"]}
{"id": "C79", "title": "Task priorities round-trip through their names", "statement": "configure(name, priority_name()) gives back the same priority; unknown names throw; problem constraints configured with any string other than 'hard' become soft.", "quantifier": "all strings", "why_tests_cant": "all strings", "anchors": ["src/placo/tools/prioritized.cpp: priority_from_string, Prioritized::priority_name", "src/placo/problem/constraint.cpp: ProblemConstraint::configure"]}
{"id": "C80", "title": "Directions helpers return unit vectors", "statement": "directions_2d(n) and directions_3d(n, eps) return exactly n unit vectors, the 2d ones equally spaced.", "quantifier": "all n", "why_tests_cant": "all n", "anchors": ["src/placo/tools/directions.cpp: directions_2d, directions_3d"]}
{"id": "C81", "title": "Consistent but redundant hard equalities are accepted", "statement": "Adding a hard equality that is implied by the others (for instance the same equality twice) does not make solve fail when the problem has a solution.", "quantifier": "every problem with linearly dependent, consistent hard equalities; every correct QR decomposition", "why_tests_cant": "redundancy arises from combinations of independently written tasks; a test suite only covers the combinations it lists", "anchors": ["src/placo/problem/problem.cpp: Problem::solve"]}
{"id": "C82", "title": "Solver options never lead to undefined behaviour on well-formed problems", "statement": "For a problem whose constraints mention existing unknowns only, have rows and consistent heights, solve returns or throws QPError, whatever rewrite_equalities, use_sparsity, the constraints and the back-end.", "quantifier": "every reachable well-formed problem, every option setting, every back-end", "why_tests_cant": "undefined behaviour appears only for combinations of options and constraint kinds and may go unnoticed", "anchors": ["src/placo/problem/problem.cpp: Problem::solve"]}
{"id": "C83", "title": "Feasible problems are solved", "statement": "A well-formed problem with linearly independent hard equalities, positive regularization and soft weights, and at least one point satisfying the hard constraints is solved successfully, unless the QR misjudges the rank of a matrix with independent columns or the QP back-end fails on a feasible strictly convex program.", "quantifier": "every reachable problem, every QR and QP back-end", "why_tests_cant": "must hold for every feasible problem; failures depend on the assembled matrices", "anchors": ["src/placo/problem/problem.cpp: Problem::solve"]}
{"id": "C84", "title": "configure changes only the priority and the weight of a constraint", "statement": "configure(type, weight) and configure(priority, weight) leave the relation the constraint states unchanged, store the weight, and set the priority: \"hard\" gives a hard constraint and any other string silently gives a soft one.", "quantifier": "every constraint, every string, every weight", "why_tests_cant": "every string but one maps to soft", "anchors": ["src/placo/problem/constraint.cpp: ProblemConstraint::configure"]}
{"id": "C85", "title": "Trajectories solve the continuous system exactly between key-frames", "statement": "For a system matrix whose last row is zero, inside each step the functions value(., 0) ... value(., order-1) of a trajectory are differentiable and satisfy dX/dt = M [X; u_k] with the input u_k of that step held.", "quantifier": "every system matrix, step, input sequence, initial state and time inside a step", "why_tests_cant": "a differential equation over a continuum of times", "anchors": ["src/placo/problem/integrator.cpp: Integrator::Trajectory::value, AB_matrices"]}
{"id": "C86", "title": "For chains of integrators, value(t, d+1) is the derivative of value(t, d)", "statement": "For an integrator built from an order, inside each step value(., d+1) is the derivative of value(., d) for every d < order (the input included), and value(., d) is the Taylor polynomial of the state at the start of the step.", "quantifier": "every order, step, input sequence, initial state and time inside a step", "why_tests_cant": "continuum of times, every order", "anchors": ["src/placo/problem/integrator.cpp: Integrator::Trajectory::value, Integrator::upper_shift_matrix"]}
{"id": "C87", "title": "expr_t rejects unsupported derivatives", "statement": "expr_t(t, diff) returns an expression for -1 <= diff <= order at every time and throws for any other diff, as expr does; outside the horizon it extrapolates the first or last step.", "quantifier": "every integrator with a step dt different from 0 and at least one step, every time, every diff", "why_tests_cant": "continuum of times, every integer", "anchors": ["src/placo/problem/integrator.cpp: Integrator::expr_t"]}
{"id": "C88", "title": "Derivative coefficients fit in an int", "statement": "The integer factors degree*(degree-1)*... that Polynom::value and ProblemPolynom::expr multiply the coefficients with fit in a 32-bit int.", "quantifier": "all degrees and derivative orders", "why_tests_cant": "all degrees; tests use low degrees", "anchors": ["src/placo/tools/polynom.cpp: Polynom::derivative_coefficient"]}
{"id": "C89", "title": "is_point_in_segment accepts the segment and only its neighbourhood", "statement": "Every point of the closed segment is accepted, for every epsilon > 0; every accepted point is closer to a point of the segment than epsilon * max(1, distance to the start).", "quantifier": "all segments (also of length 0), points and tolerances", "why_tests_cant": "continuum", "anchors": ["src/placo/tools/segment.cpp: Segment::is_point_in_segment, Segment::is_segment_aligned, Segment::is_point_aligned"]}
{"id": "C90", "title": "is_parallel bounds the sine of the angle and is symmetric", "statement": "s1.is_parallel(s2, eps) iff both have a length and |sin(angle)| < eps; it does not depend on the order of the segments nor on their direction.", "quantifier": "all pairs of segments, all tolerances", "why_tests_cant": "continuum", "anchors": ["src/placo/tools/segment.cpp: Segment::is_parallel"]}
{"id": "C91", "title": "vel and acc of a spline are the derivatives of pos", "statement": "For every t, vel(t) is the derivative of pos at t, and between the points acc(t) is the derivative of vel.", "quantifier": "all reachable splines, all t", "why_tests_cant": "continuum of times, unbounded number of points", "anchors": ["src/placo/tools/cubic_spline.cpp: CubicSpline::vel, CubicSpline::acc, CubicSpline::interpolation"]}
{"id": "C92", "title": "The components of a CubicSpline3D stay in lockstep", "statement": "After any history of calls, including rejected points, the three components have the same times; a rejected point changes none of them; an accepted one is appended to each; queries return the values of the three components.", "quantifier": "every history of calls, exceptions caught", "why_tests_cant": "histories", "anchors": ["src/placo/tools/cubic_spline_3d.cpp: CubicSpline3D::add_point, CubicSpline3D::pos, CubicSpline3D::vel, CubicSpline3D::clear"]}
{"id": "C93", "title": "interpolate_frames returns a rigid transformation", "statement": "The orientation returned by interpolate_frames is a rotation matrix for every pair of rigid frames and every ratio.", "quantifier": "all pairs of rigid frames, all ratios", "why_tests_cant": "continuum, exact orthogonality", "anchors": ["src/placo/tools/utils.cpp: interpolate_frames"]}
{"id": "C94", "title": "interpolate_frames turns at constant rate along the short way", "statement": "If phi in [0, pi] is the angle between the orientations of A and B, the result at ratio t is at angle t*phi from A and (1-t)*phi from B.", "quantifier": "all pairs of rigid frames, all ratios", "why_tests_cant": "continuum", "anchors": ["src/placo/tools/utils.cpp: interpolate_frames"]}
{"id": "C95", "title": "rotation_from_axis maps the axis onto the vector", "statement": "For axis x, y or z and any non-zero vector v, rotation_from_axis returns a rotation that maps the axis to v/|v|, also when v is parallel or opposite to the axis; it throws for other names.", "quantifier": "all names and all non-zero vectors", "why_tests_cant": "continuum, degenerate directions", "anchors": ["src/placo/tools/utils.cpp: rotation_from_axis, safe_acos"]}
{"id": "C96", "title": "optimal_transformation is the best rigid alignment", "statement": "optimal_transformation(A,B) is a rigid transformation that minimises the sum of squared distances between the points of A and the transformed points of B among all rigid transformations; if an exact alignment exists every point is matched; wrong shapes throw.", "quantifier": "all point sets of at least three points, given a correct SVD", "why_tests_cant": "optimality over all rigid motions", "anchors": ["src/placo/tools/utils.cpp: optimal_transformation"]}
{"id": "C97", "title": "Phase durations are whole numbers of timesteps", "statement": "dt() is the single support duration divided by its timesteps; double support durations are the configured ratio of the single support duration, rounded to the nearest whole number of timesteps; has_double_support holds exactly when this number is not zero.", "quantifier": "all parameter sets with positive duration and timesteps", "why_tests_cant": "continuum, rounding", "anchors": ["src/placo/humanoid/humanoid_parameters.cpp: dt, double_support_timesteps, startend_double_support_timesteps, double_support_duration, has_double_support"]}
{"id": "C98", "title": "overlap_clip predicts the step of the planner", "statement": "overlap_clip(side, step) returns the step that clipped_opposite_footstep takes for this request from any foot on the floor; it is an allowed step, with the yaw in (-pi, pi].", "quantifier": "all requests, sides, support poses, positive limits", "why_tests_cant": "continuum; independence from the pose", "anchors": ["src/placo/humanoid/humanoid_parameters.cpp: ellipsoid_overlap_clip, box_overlap_clip, overlap_clip"]}
{"id": "C99", "title": "The naive planner reaches its targets", "statement": "If plan returns before max_steps, both feet are at their targets.", "quantifier": "all start and target poses, all parameters", "why_tests_cant": "loop over a continuum of poses", "anchors": ["src/placo/humanoid/footsteps_planner_naive.cpp: FootstepsPlannerNaive::plan_impl"]}
{"id": "C100", "title": "Supports move rigidly", "statement": "Transforming a support by T moves the frame of each foot and, for motions along the floor, each corner of its polygon by T, keeps sides, flags and start time, and composes; apply_offset is the transformation by a horizontal translation.", "quantifier": "all supports and transformations", "why_tests_cant": "continuum and lists", "anchors": ["src/placo/humanoid/footsteps_planner.cpp: operator*(Eigen::Affine3d, Support), Support::apply_offset"]}
{"id": "C101", "title": "Planning does not depend on the choice of the world frame", "statement": "Planning from transformed feet (to transformed targets) gives the transformed plan, for the repetitive planner (floor motions) and for the naive planner.", "quantifier": "all plans and rigid motions", "why_tests_cant": "continuum, equivariance", "anchors": ["src/placo/humanoid/footsteps_planner_repetitive.cpp: FootstepsPlannerRepetitive::plan_impl", "src/placo/humanoid/footsteps_planner_naive.cpp: FootstepsPlannerNaive::plan_impl"]}
{"id": "C102", "title": "Truncated walks end on both feet", "statement": "truncate_supports(l, i, add_end) throws when i exceeds the number of supports; otherwise returns the first i supports, and when asked appends an end double support with the feet of the last support and the next one.", "quantifier": "all walks and indices", "why_tests_cant": "lists of unbounded length, boundary indices", "anchors": ["bindings/expose-footsteps.cpp: truncate_supports"]}
{"id": "C103", "title": "SwingFootQuintic makes a smooth step", "statement": "SwingFootQuintic::make_trajectory makes a trajectory from start to target with zero velocity at both ends, zero horizontal acceleration at both ends and the given height at a quarter and three quarters of the flight. (False with the assertions of Eigen: the vectors have 18 coefficients where 6 are given and used.)", "quantifier": "all positions, heights and times", "why_tests_cant": "continuum, uninitialised memory", "anchors": ["src/placo/humanoid/swing_foot_quintic.cpp: SwingFootQuintic::make_trajectory, pos, vel"]}
{"id": "C104", "title": "Transforming a planned trajectory moves everything it describes", "statement": "After apply_transform(T), the poses and velocities of the feet, the CoM position, velocity, acceleration and jerk, the DCM, the ZMP, the trunk orientation and the supports are those of the trajectory before, moved by T; the timing is unchanged; for a T along the floor the yaws are shifted by its yaw and what is expressed in the support frame is unchanged. (False for the target DCM kept in the supports, which is not moved.)", "quantifier": "all trajectories, transformations, times", "why_tests_cant": "all transformations and times", "anchors": ["src/placo/humanoid/walk_pattern_generator.cpp: WalkPatternGenerator::Trajectory::apply_transform, get_T_world_foot, get_p_world_CoM, get_supports, get_p_support_CoM"]}
{"id": "C105", "title": "The planned CoM starts from the given state and moves continuously", "statement": "The CoM of a planned trajectory starts from the given position at rest (a replanned one from the position, velocity and acceleration of the previous trajectory), stays at the walking height, and its position, velocity and acceleration are continuous at all times, across the supports, and derivatives of one another.", "quantifier": "all lists of supports of positive durations, parameters, times", "why_tests_cant": "continuum; unbounded number of supports", "anchors": ["src/placo/humanoid/walk_pattern_generator.cpp: WalkPatternGenerator::plan, replan, plan_com", "src/placo/humanoid/lipm.cpp: LIPM"]}
{"id": "C106", "title": "The ZMP of a planned walk stays in the support polygons", "statement": "With hard constraints, at every timestep of every support of a planned trajectory the reported ZMP is inside the support polygon with the configured margin; at the end of a support that ends the walk, the CoM is above the support frame with zero velocity and acceleration.", "quantifier": "all lists of supports, parameters and correct solvers, all timesteps", "why_tests_cant": "depends on the solver answer for every input", "anchors": ["src/placo/humanoid/walk_pattern_generator.cpp: WalkPatternGenerator::plan_com, constrain_lipm"]}
{"id": "C107", "title": "joint_names lists the joints, and set_velocity_limits limits them all", "statement": "joint_names() lists, once each, the joints of the robot other than the floating base; set_velocity_limits gives the limit to the (first) velocity of each of them and changes no other velocity limit, position limit, effort limit or state.", "quantifier": "all robots and limits", "why_tests_cant": "all robots", "anchors": ["src/placo/model/robot_wrapper.cpp: RobotWrapper::joint_names, set_velocity_limits, set_velocity_limit"]}
{"id": "C108", "title": "Relative poses, and relative_position_jacobian is the derivative of the relative position", "statement": "get_T_a_b(a, b) is the only transformation that composed after the pose of a gives the pose of b. When the robot moves with velocity qd, the velocity of the origin of frame b expressed in frame a (get_T_a_b translation) is relative_position_jacobian(a, b) * qd.", "quantifier": "all robots, motions, pairs of frames", "why_tests_cant": "derivative over all motions", "anchors": ["src/placo/model/robot_wrapper.cpp: RobotWrapper::relative_position_jacobian, get_T_a_b"]}
{"id": "C109", "title": "Torques for an acceleration with a fixed frame satisfy the equation of motion", "statement": "torques_from_acceleration_with_fixed_frame(qdd_a, frame) returns torques that, with a wrench at the frame and a base acceleration that keeps the frame fixed, produce qdd_a. (False: the inertial forces on the floating base are ignored.)", "quantifier": "all robots, states, accelerations, frames", "why_tests_cant": "all states and accelerations", "anchors": ["src/placo/model/robot_wrapper.cpp: RobotWrapper::torques_from_acceleration_with_fixed_frame"]}
{"id": "C110", "title": "The mass matrix is symmetric and includes the rotors", "statement": "mass_matrix() is symmetric and its quadratic form is the one of the bodies plus, for each degree of freedom, the rotor inertia times the square of gear ratio times velocity.", "quantifier": "all robots, states, velocities", "why_tests_cant": "all states and velocities", "anchors": ["src/placo/model/robot_wrapper.cpp: RobotWrapper::mass_matrix, set_rotor_inertia, set_gear_ratio"]}
{"id": "C111", "title": "Noise keeps the robot within its limits", "statement": "add_q_noise(noise) with noise in [0,1] keeps every joint that was within its limits within them, moves limited joints by the share noise towards a random configuration, and does not touch the base nor the joints without limits, including those whose limits are both zero in the model file.", "quantifier": "all robots, states, random configurations, noises", "why_tests_cant": "random; all configurations", "anchors": ["src/placo/model/robot_wrapper.cpp: RobotWrapper::add_q_noise, RobotWrapper (limits)"]}
{"id": "C112", "title": "Jacobians by name are those of the named frame or joint", "statement": "The frame Jacobians and their time variations requested by name are those of the frame of that name in the named reference and unknown names throw; joint_jacobian_time_variation by name is the time variation of the Jacobian of the joint. (False for the latter: it returns the Jacobian.)", "quantifier": "all robots, names, references", "why_tests_cant": "all names", "anchors": ["src/placo/model/robot_wrapper.cpp: RobotWrapper::frame_jacobian, frame_jacobian_time_variation, joint_jacobian_time_variation, string_to_reference"]}
{"id": "C113", "title": "integrate applies the acceleration, then the new velocity", "statement": "After integrate(dt), qd is increased by dt*qdd, every one-dof joint by dt times its new velocity, and qdd is unchanged.", "quantifier": "all robots, states, timesteps", "why_tests_cant": "all states", "anchors": ["src/placo/model/robot_wrapper.cpp: RobotWrapper::integrate"]}
{"id": "C114", "title": "The solution depends only on the question", "statement": "With a positive regularization, sparsity off and non-negative soft weights, two problems with the same number of unknowns, the same regularization and the same constraints in any order give the same values when solve() succeeds on both, whatever rewrite_equalities, the previous solves, and the correct QP and QR algorithms they use. In particular solving twice gives the same values, and the order in which constraints were added does not matter.", "quantifier": "all pairs of problems that differ by the order of constraints, options and history; all correct back-ends", "why_tests_cant": "all orders and histories; quantifies over back-ends", "anchors": ["src/placo/problem/problem.cpp: Problem::solve, add_constraint"]}
{"id": "C115", "title": "A kinematics solve gives the best displacement", "statement": "If the back-ends are correct and sparsity is off, a successful solve returns a displacement that satisfies everything hard that was asked and, among all the displacements that do, minimises the sum of weight * squared error of the soft tasks, of the soft constraints, of the scale task and of the regularization.", "quantifier": "all solvers, histories, robots, tasks, constraints, back-ends", "why_tests_cant": "optimality compares with every other displacement", "anchors": ["src/placo/kinematics/kinematics_solver.cpp: KinematicsSolver::solve"]}
{"id": "C116", "title": "A kinematics solve depends only on what is asked", "statement": "Two solvers of the same robot with the same tasks and constraints (in any order), masks, limits, dt and regularization give the same displacement and the same scale, whatever was solved before with each of them and whatever correct back-ends they use.", "quantifier": "all pairs of solver histories, orders of tasks and constraints, back-ends", "why_tests_cant": "all histories and orders", "anchors": ["src/placo/kinematics/kinematics_solver.cpp: KinematicsSolver::solve, add_task, add_constraint"]}
{"id": "C117", "title": "Incompatible kinematics requests are reported and leave the robot as it was", "statement": "When no displacement satisfies the hard tasks, scaled tasks, masks, limits and hard constraints together, solve throws a QPError and robot.state does not change.", "quantifier": "all solvers, robots, back-ends", "why_tests_cant": "infeasibility is a statement about every displacement", "anchors": ["src/placo/kinematics/kinematics_solver.cpp: KinematicsSolver::solve"]}
{"id": "C118", "title": "Compatible kinematics requests are answered", "statement": "A solve whose tasks can be evaluated never has undefined behaviour: it returns a displacement or throws a QPError. When some displacement satisfies everything hard that is asked, and none of the hard equalities follows from the others, it returns one, unless a back-end fails on a problem it should solve.", "quantifier": "all solvers, robots, tasks, back-ends", "why_tests_cant": "liveness for every request", "anchors": ["src/placo/kinematics/kinematics_solver.cpp: KinematicsSolver::solve"]}
{"id": "C119", "title": "Redundant kinematics requests are answered", "statement": "Asking for the same thing twice (masking the floating base and one of its degrees of freedom, masking a joint that a hard joints task keeps where it is, adding the same hard task twice) does not make solve fail when some displacement satisfies everything.", "quantifier": "all solvers, robots, sets of hard requests", "why_tests_cant": "all combinations of requests", "anchors": ["src/placo/kinematics/kinematics_solver.cpp: KinematicsSolver::solve, mask_dof, mask_fbase"]}
{"id": "C120", "title": "Robots without joints can be solved for", "statement": "solve succeeds on a robot that only has a floating base, with the default settings, when some displacement satisfies everything that is asked.", "quantifier": "all robots with six degrees of freedom, all tasks", "why_tests_cant": "all tasks and back-ends", "anchors": ["src/placo/kinematics/kinematics_solver.cpp: KinematicsSolver::compute_limits_inequalities"]}
{"id": "C121", "title": "Walk tasks follow the trajectory they are given", "statement": "After update_tasks, in any history, every foot, trunk and CoM (or trunk position) task in the solver has exactly the requested target, the CoM target being shifted by (com_x, com_y) in the frame of the trunk.", "quantifier": "every history of calls, every target", "why_tests_cant": "histories with pointers that are deleted and created again", "anchors": ["src/placo/humanoid/walk_tasks.cpp: WalkTasks::update_tasks"]}
{"id": "C122", "title": "The DCM controller is bounded and determined by its inputs", "statement": "update_tasks_and_pid shifts the CoM target by an offset that depends only on the gains and on the errors seen so far; its integral term stays within max(initial value, E T / lambda) for errors at most E and periods at most T; zero gains leave the target as it is.", "quantifier": "all sequences of errors, periods and gains", "why_tests_cant": "all sequences of unbounded length", "anchors": ["src/placo/humanoid/walk_tasks.cpp: WalkTasks::update_tasks_and_pid", "src/placo/humanoid/walk_tasks.h: WalkTasks::integral, last_error"]}
{"id": "C123", "title": "The initial pose is the requested one", "statement": "reach_initial_pose asks for a right foot at (0, -feet_spacing, 0) in the frame of the left one with the same orientation, and for a CoM at com_height above the middle of the feet.", "quantifier": "all left foot poses, spacings, heights", "why_tests_cant": "continuum", "anchors": ["src/placo/humanoid/walk_tasks.cpp: WalkTasks::reach_initial_pose"]}
{"id": "C124", "title": "The dynamics solve is optimal", "statement": "A successful solve returns accelerations, torques and wrenches that satisfy every hard requirement, and that have the least cost among all those that do: torque cost, soft tasks, contact weights, soft constraints and regularization.", "quantifier": "all solvers, robots, tasks, contacts and constraints; all competing accelerations and wrenches", "why_tests_cant": "a test cannot compare with every other solution", "anchors": ["src/placo/dynamics/dynamics_solver.cpp: DynamicsSolver::solve"]}
{"id": "C125", "title": "A free-floating body without joints can be solved", "statement": "A dynamics solver for a robot with a floating base and no other joint succeeds when a solution exists. (Refuted: it always reports a failure.)", "quantifier": "all solvers for robots with six degrees of freedom", "why_tests_cant": "whatever the tasks and contacts, the solve fails", "anchors": ["src/placo/dynamics/dynamics_solver.cpp: DynamicsSolver::solve"]}
{"id": "C126", "title": "External wrenches are applied exactly", "statement": "After a successful solve, the wrench of each active external wrench contact is exactly the one the user set.", "quantifier": "all solvers with any number of contacts, at any position in the list, and all wrenches", "why_tests_cant": "must hold for every other task and contact of the problem", "anchors": ["src/placo/dynamics/contacts.cpp: ExternalWrenchContact::add_constraints"]}
{"id": "C127", "title": "Torque tasks give the torques they are set to", "statement": "After a successful solve, each joint of a hard torque task has the torque set, plus kp times its position minus kd times its velocity; set_torque changes its joint only, and reset_torque removes its joint only.", "quantifier": "all robots, states, lists of joints and gains, and all other tasks and contacts", "why_tests_cant": "must hold for every combination with other tasks", "anchors": ["src/placo/dynamics/torque_task.cpp: TorqueTask::update", "src/placo/dynamics/torque_task.cpp: TorqueTask::set_torque", "src/placo/dynamics/torque_task.cpp: TorqueTask::reset_torque"]}
{"id": "C128", "title": "Setting a gear keeps the gears of other joints (dynamics)", "statement": "set_gear of a dynamics gear task replaces the sources of its target and leaves the gears of the other targets, like the one of the kinematics. (Refuted: it removes all of them.)", "quantifier": "all histories of set_gear and add_gear", "why_tests_cant": "histories of any length", "anchors": ["src/placo/dynamics/gear_task.cpp: GearTask::set_gear", "src/placo/kinematics/gear_task.cpp: GearTask::set_gear"]}
{"id": "C129", "title": "The dynamics solve succeeds exactly when it can", "statement": "If everything can be evaluated, the equalities are not redundant and some accelerations and wrenches satisfy the hard requirements, the solve succeeds unless a numerical back-end fails; if none do, it reports a failure and leaves the robot unchanged.", "quantifier": "all solvers and robots", "why_tests_cant": "existence over all reals of a solution", "anchors": ["src/placo/dynamics/dynamics_solver.cpp: DynamicsSolver::solve"]}
{"id": "C130", "title": "Kinematics tasks decrease their error at the first order", "statement": "If the robot moves with the displacement returned by the kinematics solver as its velocity, the error of every hard position, center of mass, relative position or distance task decreases, along each axis of its mask, by itself per unit of time (so that a unit step cancels it at the first order), and the error of a scaled task by the reported scale times itself; the penalty of a soft task is half its weight times the sum of the squares of the errors left.", "quantifier": "all robots, configurations, targets, masks (world, local and custom axes) and all other tasks and constraints of the solver", "why_tests_cant": "a derivative along every motion of every robot, for every combination of tasks", "anchors": ["src/placo/kinematics/position_task.cpp: PositionTask::update", "src/placo/kinematics/com_task.cpp: CoMTask::update", "src/placo/kinematics/relative_position_task.cpp: RelativePositionTask::update", "src/placo/kinematics/distance_task.cpp: DistanceTask::update", "src/placo/kinematics/kinematics_solver.cpp: KinematicsSolver::solve"]}
{"id": "C131", "title": "Orientation tasks turn frames towards their targets", "statement": "The displacement gives the frame of a hard orientation task, along each axis of its mask, the angular velocity that leads to the target orientation (with the three axes: rotating during a unit of time at this velocity reaches the target exactly); the same for the orientation of a frame in another. The angle between the axis and the target of an axis align task decreases at the rate of C130 and the axis moves in the plane of both; an axis that has reached its target stays there. (Refuted for this last point: the matrix is then not finite.)", "quantifier": "all robots, configurations, rotations, masks, axes and all other tasks and constraints", "why_tests_cant": "all rotations, including those at distance pi; the singular set of the axis task has measure zero", "anchors": ["src/placo/kinematics/orientation_task.cpp: OrientationTask::update", "src/placo/kinematics/relative_orientation_task.cpp: RelativeOrientationTask::update", "src/placo/kinematics/axis_align_task.cpp: AxisAlignTask::update"]}
{"id": "C132", "title": "What the kinematics constraints guarantee", "statement": "After a successful solve, a hard constraint holds at the first order for the returned displacement: the distance between the two frames of a distance constraint is at most the maximum; the joints satisfy the half-spaces (exactly, in the configuration the robot is in after an applied solve; the entries of the base are ignored, as documented); the center of mass, or its divergent component computed with the velocity of the displacement, is at least at the margin from every edge of the clockwise polygon; the distance of every pair of objects that is closer than the trigger is at least the margin. A soft constraint costs half its weight times the sum of the squares of its violations, and nothing when there is none; a hard one costs nothing. Self collisions are hard unless they are asked to be soft.", "quantifier": "all robots, configurations, polygons, pairs of objects, penetrating or not, and all other tasks and constraints of the solver", "why_tests_cant": "a derivative along every motion of every robot, for every combination of tasks and every polygon", "anchors": ["src/placo/kinematics/distance_constraint.cpp: DistanceConstraint::add_constraint", "src/placo/kinematics/joint_space_half_spaces_constraint.cpp: JointSpaceHalfSpacesConstraint::add_constraint", "src/placo/kinematics/com_polygon_constraint.cpp: CoMPolygonConstraint::add_constraint", "src/placo/kinematics/avoid_self_collisions_constraint.cpp: AvoidSelfCollisionsConstraint::add_constraint"]}
{"id": "C133", "title": "What the regularization, kinetic energy and momentum tasks cost", "statement": "The cost a regularization task adds to a solve is half its weight times the sum, on the degrees of freedom of the joints, of the square of the displacement times the weight of the last set_joint_weight() for that joint if there is one, else of the last set_weight() or 1: also for calls made after the task has been used, and for any sequence of calls and updates. The cost of a kinetic energy regularization is its weight times the kinetic energy of the velocity that the displacement is over dt. With a hard centroidal momentum task, the selected components of the angular momentum of that velocity are the ones of the target; a soft one costs half its weight times the squares of the differences.", "quantifier": "all robots, sequences of calls, masks, targets, displacements and other tasks of the solver", "why_tests_cant": "the cost is a function of every displacement, after every sequence of calls; a stale cached matrix only shows on some sequences", "anchors": ["src/placo/kinematics/regularization_task.cpp: RegularizationTask::update, set_joint_weight, set_weight", "src/placo/kinematics/kinetic_energy_regularization_task.cpp: KineticEnergyRegularizationTask::update", "src/placo/kinematics/centroidal_momentum_task.cpp: CentroidalMomentumTask::update"]}
{"id": "C134", "title": "Wheels roll without slipping", "statement": "With a hard wheel task, when the axis of the wheel is not the vertical of the surface, the point of the circle of the wheel that is the closest to the surface has, along every motion with the returned displacement as velocity, a velocity that has no component in the surface (only none across the axis of the wheel for an omniwheel), and a vertical component that is the opposite of its height (times the scale for a scaled task): a wheel in contact rolls, the center moving with the angular velocity times the vector from the contact point. A soft task costs half its weight times the square of the norm of the difference with that velocity.", "quantifier": "all robots, surfaces, positions, orientations and radii of wheels, and other tasks of the solver", "why_tests_cant": "for every orientation of the wheel and of the surface, and every motion", "anchors": ["src/placo/kinematics/wheel_task.cpp: WheelTask::update", "src/placo/kinematics/kinematics_solver.cpp: KinematicsSolver::add_wheel_task"]}
{"id": "C135", "title": "The yaw constraint limits the yaw", "statement": "With a hard yaw constraint of the frames a and b, the yaw of b in a (the angle of the projection of the x axis of b in the plane (x, y) of a) plus its derivative along every motion with the returned displacement as velocity is between minus and plus the maximum. A soft one costs half its weight times the sum of the squares of the violations.", "quantifier": "all robots, frames, maxima and other tasks of the solver", "why_tests_cant": "tests use frames whose x axis is level, where a wrong row gives the same result", "anchors": ["src/placo/kinematics/yaw_constraint.cpp: YawConstraint::add_constraint", "src/placo/kinematics/kinematics_solver.cpp: KinematicsSolver::add_yaw_constraint"]}
{"id": "C136", "title": "The cone constraint limits the tilt", "statement": "With a hard cone constraint of the frames a and b, the angle between the z axes of a and b plus its derivative along every motion with the returned displacement as velocity is at most the maximum, for every number of slices.", "quantifier": "all robots, frames, maxima, numbers of slices and other tasks of the solver", "why_tests_cant": "tests use the default number of slices and axes that are not aligned", "anchors": ["src/placo/kinematics/cone_constraint.cpp: ConeConstraint::add_constraint", "src/placo/kinematics/kinematics_solver.cpp: KinematicsSolver::add_cone_constraint"]}
{"id": "C137", "title": "The dynamics keep colliding bodies apart", "statement": "With the self-collision constraint of the dynamics solver, every pair of bodies beyond the margin that approaches each other brakes: the speed of its opening after one step is at least minus the braking speed of its remaining distance. A pair inside the margin opens with a speed that increases at least by the amount needed to leave it. A soft constraint costs its weight times the squares of the violations.", "quantifier": "all robots, pairs of closest points, margins, triggers, time steps, safe accelerations and other tasks and constraints of the solver", "why_tests_cant": "tests look at two robots and at the final configuration, not at each pair at each step", "anchors": ["src/placo/dynamics/avoid_self_collisions_constraint.cpp: AvoidSelfCollisionsConstraint::add_constraint", "src/placo/dynamics/dynamics_solver.cpp: DynamicsSolver::add_avoid_self_collisions_constraint"]}
{"id": "C138", "title": "A humanoid stays on its support", "statement": "Over any sequence of writes of the state, updates, changes of support and placements, the support of the robot is the last side that was asked for, and each placement puts the support frame where it should be, on the floor, without moving the joints. Changing the support of an up-to-date robot and placing it puts the new foot flat on the floor under where it was, with the same heading, and does not move anything when it was flat. Making the robot puts its left foot on the origin, or throws when a foot or the trunk is missing.", "quantifier": "all robots, states, feet, rotations and sequences of calls", "why_tests_cant": "the histories are unbounded and the placements are real", "anchors": ["src/placo/humanoid/humanoid_robot.cpp: HumanoidRobot::ensure_on_floor", "src/placo/humanoid/humanoid_robot.cpp: HumanoidRobot::update_support_side", "src/placo/humanoid/humanoid_robot.cpp: HumanoidRobot::init_config"]}
{"id": "C139", "title": "The IMU orients the trunk", "statement": "update_from_imu(R) and ensure_on_floor_oriented(R) place the robot so that the trunk has exactly the orientation R, the support point stays where it is, and the joints do not move. Giving it the current orientation changes nothing.", "quantifier": "all robots, configurations and rotations", "why_tests_cant": "rotations are real matrices", "anchors": ["src/placo/humanoid/humanoid_robot.cpp: HumanoidRobot::update_from_imu", "src/placo/humanoid/humanoid_robot.cpp: HumanoidRobot::ensure_on_floor_oriented"]}
{"id": "C140", "title": "Humanoid torques satisfy the equation of motion", "statement": "get_torques(acc, forces) returns the only efforts that, without any on the floating base, give the joints these accelerations when the points of the soles carry these normal forces, with the non linear effects or with gravity only as asked; the forces act at these points along their z axes.", "quantifier": "all robots, states, accelerations and forces", "why_tests_cant": "it is an equation between real vectors for all the mass matrices", "anchors": ["src/placo/humanoid/humanoid_robot.cpp: HumanoidRobot::get_torques"]}
{"id": "C141", "title": "The velocity of the center of mass from the gyroscope", "statement": "get_com_velocity(support, omega) is the velocity of the center of mass in every motion in which the point of the given support does not move and the trunk turns at omega in its own axes, whatever the velocity of the floating base in the state.", "quantifier": "all robots, supports, motions and angular velocities", "why_tests_cant": "the velocities are derivatives of arbitrary motions", "anchors": ["src/placo/humanoid/humanoid_robot.cpp: HumanoidRobot::get_com_velocity"]}
{"id": "C142", "title": "The camera looks at its target", "statement": "When camera_look_at(target) returns true, the camera of a robot of which the head turns by the pan and the tilt that were written has the target on its optical axis, in front of it; when it returns false, there are no such angles.", "quantifier": "all head placements, distances and targets", "why_tests_cant": "trigonometric identity over all reals", "anchors": ["src/placo/humanoid/humanoid_robot.cpp: HumanoidRobot::camera_look_at", "src/placo/humanoid/humanoid_robot.cpp: HumanoidRobot::HumanoidRobot"]}
{"id": "C143", "title": "DCM and ZMP are those of the linear inverted pendulum", "statement": "For every motion of the center of mass, given its velocity and its acceleration, dcm() and zmp() satisfy DCM' = omega (DCM - ZMP) and c' = omega (DCM - c).", "quantifier": "all motions and omega not null", "why_tests_cant": "derivatives of arbitrary motions", "anchors": ["src/placo/humanoid/humanoid_robot.cpp: HumanoidRobot::dcm", "src/placo/humanoid/humanoid_robot.cpp: HumanoidRobot::zmp"]}
{"id": "C144", "title": "The dummy walk steps as it is asked to, and alternates its feet", "statement": "DummyWalk is built (and reset) with both feet on the floor at feet_spacing around the origin. Each next_step(dx, dy, dtheta) lays the flying foot where it was to land, switches the support, leaves the other foot where it is, and chooses the next landing: at feet_spacing from the new support, moved by the step asked for, scaled down to an allowed step (and so that the feet stay apart), and exactly the step when it is allowed and the feet stay apart. After any sequence of next_step, update and update_T_world_support calls, including one that failed, both feet and the landing are on the floor, and the support is the one given by the parity of the next_step calls. With walk_foot_rise_ratio outside ]0, 1[ the constructor throws.", "quantifier": "All parameters with positive limits, all steps, all robots, all inverse kinematics (succeeding or not), all histories of calls.", "why_tests_cant": "The invariant is on arbitrary histories of three calls with real arguments.", "anchors": ["src/placo/humanoid/dummy_walk.cpp:5-58", "src/placo/humanoid/dummy_walk.cpp:108-119", "src/placo/humanoid/footsteps_planner_repetitive.cpp"]}
{"id": "C145", "title": "The targets of the dummy walk are continuous and keep the support still", "statement": "During update(t) the target of the support foot is its place on the floor, whatever t; the target of the flying foot goes straight from its place to its landing, without tilting, at a height that is 0 at t = 0 and t = 1, walk_foot_height around the middle during walk_foot_rise_ratio of the step, always between 0 and walk_foot_height, and continuous; it is exactly its place at t = 0 and exactly the landing at t = 1. The trunk's target is at walk_com_height, upright but for its pitch, in front of the middle of both feet. The targets of update(1) are those of update(0) after next_step, whatever the step.", "quantifier": "All walks reachable by the calls, all parameters, all t.", "why_tests_cant": "Holds for every real t and every reachable walk.", "anchors": ["src/placo/humanoid/dummy_walk.cpp:60-86", "src/placo/humanoid/dummy_walk.cpp:24-43", "src/placo/tools/cubic_spline.cpp"]}
{"id": "C146", "title": "update_T_world_support moves the whole walk, and the robot", "statement": "update_T_world_support(T) puts the support foot of the walk at the projection of T on the floor, and moves the other foot and the landing by the same motion along the floor. The support foot of the robot is put at the same place, and its joints and the relative placements of its frames are kept.", "quantifier": "All reachable walks, all T, all robots.", "why_tests_cant": "Depends on what the robot last computed, that is on the history of calls.", "anchors": ["src/placo/humanoid/dummy_walk.cpp:88-106", "src/placo/humanoid/dummy_walk.cpp:128-136", "src/placo/model/robot_wrapper.cpp: set_T_world_frame"]}
{"id": "C147", "title": "The manipulability task follows the gradient of the manipulability", "statement": "The manipulability a ManipulabilityTask computes is sqrt(det(J J^T)), with J the rows of the Jacobian of the frame in its own axes chosen by the type (position, orientation or both) and the columns of the joints. Alone, the task asks the joints for the displacement gradient / (2 lambda^2), the gradient being the one of this manipulability with respect to the joints (minus it when minimize is set), and asks nothing of the floating base. As a soft task its penalty is, up to a constant, weight / 2 times (lambda^2 times the square of the displacement of the joints, minus the first order change of the manipulability). It is defined whenever J J^T has an inverse and lambda is not 0; never with fewer joints than coordinates.", "quantifier": "All robots, configurations, frames, types, lambda, numbers of joints.", "why_tests_cant": "A derivative of a determinant for every robot and number of joints.", "anchors": ["src/placo/kinematics/manipulability_task.cpp:11-62", "src/placo/model/robot_wrapper.cpp:323-341", "src/placo/kinematics/kinematics_solver.cpp:166-193"]}
{"id": "C148", "title": "The collision pairs are those of the file", "statement": "load_collision_pairs succeeds exactly when all the entries of the file can be loaded: two different indices of objects, or two names of bodies that both have objects, none of them on both; entries that do not have two elements are ignored. After it, the pairs tested are exactly those listed (for two bodies, all the pairs of an object of each), each once whatever the order. When it fails, the pairs stay as they were. Without a file, the pairs are those of objects on different joints.", "quantifier": "All models, all files, all previous pairs.", "why_tests_cant": "Holds for every file and every list of objects.", "anchors": ["src/placo/model/robot_wrapper.cpp:354-419", "src/placo/model/robot_wrapper.cpp:112-123"]}
{"id": "C149", "title": "Collisions and distances are given for every pair", "statement": "self_collisions() gives exactly the pairs that are in collision in the current configuration, in the order of the pairs, each with the names and joints of its two objects and its contacts; with stop_at_first it gives the first of them, so that it is empty exactly when there is no collision. distances() gives one distance for each pair, in the order of the pairs, with the joints of its objects and the nearest points. Neither depends on update_kinematics.", "quantifier": "All lists of pairs, configurations and collision tests.", "why_tests_cant": "Holds for every list of pairs and every result of the tests.", "anchors": ["src/placo/model/robot_wrapper.cpp:455-533"]}
{"id": "C150", "title": "A new robot is neutral, at rest, up to date, and has the limits of its file", "statement": "A robot that has just been built is in the neutral configuration with zero velocities and accelerations; its frames and Jacobians are those of this configuration; the limits of a joint are those of the file, except when both are 0, and then they are those of the doubles; its collision pairs are those of collisions.json, or all those of objects on different joints when there is no such file, or none when collisions are ignored. The construction fails when this file is to be read and cannot be loaded, and only then.", "quantifier": "All models, flags and files of pairs.", "why_tests_cant": "Holds for every model and file.", "anchors": ["src/placo/model/robot_wrapper.cpp:22-153", "src/placo/model/robot_wrapper.cpp:169-172", "src/placo/model/robot_wrapper.cpp:342-352"]}
{"id": "C151", "title": "A walk is planned exactly when the ZMP can be kept in the supports", "statement": "plan() of a soft walk pattern generator succeeds for every sequence of supports that alternates properly. A hard one succeeds exactly when jerks of the CoM exist that keep the ZMP at every timestep in the polygon of its support, with the margin, and stop the robot above the end support; otherwise it throws, and never does anything undefined. When no support asks the robot to stop, such jerks exist as soon as every polygon contains a point at the margin from its edges.", "quantifier": "All sequences of supports of any length whose feet take off from the previous support and land in the next one, all initial positions of the CoM, all parameters with positive weights and durations, all matrix exponentials, QR and QP libraries that meet their contracts and do not fail.", "why_tests_cant": "An equivalence with the existence of a trajectory, over walks of any length; a test only sees walks that happen to be feasible or not.", "anchors": ["src/placo/humanoid/walk_pattern_generator.cpp:333-411", "src/placo/humanoid/walk_pattern_generator.cpp:413-534", "src/placo/problem/problem.cpp", "src/placo/humanoid/lipm.cpp"]}
{"id": "C152", "title": "The feet of a planned walk", "statement": "In a planned walk each foot has one motion, continuous in position, heading and rate of the heading, constant before the walk and after it. While the foot is in the support it does not move from its footstep. While it is not, it starts at rest from its footstep in the previous support, is at the walk height during the rise share of the step, goes straight to its footstep in the next support seen from above, never leaves the heights between the ground and the walk height, turns by half a turn at most in one direction, and arrives at rest; get_v_world_foot is the derivative of its position.", "quantifier": "All sequences of supports of any length whose feet on the ground do not slide, all walks planned on them, all times, both feet, all libraries.", "why_tests_cant": "A statement about every time of a walk of any length, with continuity and derivatives.", "anchors": ["src/placo/humanoid/walk_pattern_generator.cpp:99-131", "src/placo/humanoid/walk_pattern_generator.cpp:333-411", "src/placo/humanoid/swing_foot_cubic.cpp"]}
{"id": "C153", "title": "The feet of a replanned walk", "statement": "The same in a replanned walk, where the step under way goes on: the flying foot starts from the pose and the velocity it has in the old walk at the time of replanning, and its heading from the rate it has; it is at the walk height in the middle share of the whole step (the part already done included) and lands at rest on its footstep.", "quantifier": "All old walks, all times of replanning, all sequences of supports whose first one may be single and under way.", "why_tests_cant": "A statement about every time of a walk of any length, whatever the state of the old walk.", "anchors": ["src/placo/humanoid/walk_pattern_generator.cpp:340-411", "src/placo/humanoid/walk_pattern_generator.cpp:536-568", "src/placo/humanoid/swing_foot_cubic.cpp"]}
{"id": "C154", "title": "A walk is replanned exactly when the ZMP can be kept in the supports", "statement": "replan() on a readable old walk always returns a walk. It succeeds exactly when the generator is soft or jerks exist that keep the ZMP in the supports from the current state of the CoM. Planned walks, and replanned ones that succeeded, are readable.", "quantifier": "All sequences of supports that go on walking, all old walks that can be read at the time of replanning, all libraries that meet their contracts and do not fail.", "why_tests_cant": "An equivalence with the existence of a trajectory over walks of any length.", "anchors": ["src/placo/humanoid/walk_pattern_generator.cpp:413-568"]}
{"id": "C155", "title": "A walk that cannot be replanned goes on", "statement": "When replan() fails before the end of the old walk, the walk it returns has the motion of the old one from the time of replanning on, it starts at that time, its parts follow each other, and each one lasts what remains of its support. After the end of the old walk nothing is left: the walk is empty and its getters throw.", "quantifier": "All old walks whose parts follow each other, all times, all sequences of failed replannings.", "why_tests_cant": "The failure is decided by the solver; histories of replannings are unbounded.", "anchors": ["src/placo/humanoid/walk_pattern_generator.cpp:536-568", "src/placo/humanoid/walk_pattern_generator.cpp:812-846"]}
{"id": "C156", "title": "Alternating footsteps give supports to walk on", "statement": "make_supports on three footsteps or more with alternating sides gives supports that meet what C151 to C154 ask for: one foot or one on each side, a flying foot takes off from the previous support and lands in the next one, the feet on the ground do not slide, nothing is over, and only the last support is an end.", "quantifier": "All lists of three footsteps or more, all flags.", "why_tests_cant": "Lists of any length.", "anchors": ["src/placo/humanoid/footsteps_planner.cpp:233-287"]}
{"id": "C157", "title": "Replanning the supports keeps the step under way", "statement": "replan_supports() in the middle of a step gives supports that finish the step under way on the same foot in the time that remains, and where the flying foot lands where it was going to; once replanned on them, the walk ends that step at the same time, and the flying foot goes on from its pose and velocity to the same landing pose. The repetitive and the naive planner meet what this asks of a planner when they have a step to make. When the planner has none, both feet are at once on the ground: the flying foot jumps (refuted by a witness). With double supports, the t_start of the first one is that of the step before it.", "quantifier": "All walks, all times, all planners that start from the feet they are given, any sequence of replannings.", "why_tests_cant": "Histories of replannings at any time are unbounded.", "anchors": ["src/placo/humanoid/walk_pattern_generator.cpp:570-643", "src/placo/humanoid/footsteps_planner.cpp:233-287", "src/placo/humanoid/footsteps_planner_repetitive.cpp", "src/placo/humanoid/footsteps_planner_naive.cpp"]}
{"id": "C158", "title": "The ZMP that drives the DCM to its target", "statement": "get_optimal_zmp(a, b, d, s) returns the point of the support polygon (at the ZMP margin) that is closest to the only fixed ZMP which drives the DCM from a to b in the duration d under the pendulum dynamics; a weight of 1e-8 on the squared norm of the ZMP makes the answer unique and moves it from the ideal ZMP, when that one is allowed, by a ten thousandth of its norm at most. It throws a QPError exactly when no point is at the margin in the polygon.", "quantifier": "All DCMs, all non-zero durations, all supports with a polygon, all solver libraries that meet their contracts and do not fail.", "why_tests_cant": "Optimality among a continuum of points, against the solutions of a differential equation.", "anchors": ["src/placo/humanoid/walk_pattern_generator.cpp:786-810"]}
{"id": "C159", "title": "A step is adapted to the measured DCM", "statement": "update_supports() refuses a double support with a runtime_error. On a single support it succeeds exactly when the support polygon has a point at the ZMP margin and the zone of the next foot is not empty, and throws a QPError otherwise. It then changes nothing but the time ratio of the first support, and the place, in the horizontal plane, of the first footstep of the second one: this place is in the zone, the step lasts between max(0.15, elapsed) and max(3, elapsed), what remains of the first support is the rest of it (at least a millisecond), and with the ZMP of C158 the DCM arrives at the next place plus the offset when the step ends. Provided the solver's use of sparsity is harmless (see C16), no possible step has a smaller cost.", "quantifier": "All lists of two supports or more, all times, all measured DCMs, all polygons with vertices and proper edges, all libraries that meet their contracts and do not fail.", "why_tests_cant": "The exact conditions of success, and optimality among a continuum of steps.", "anchors": ["src/placo/humanoid/walk_pattern_generator.cpp:679-784"]}
{"id": "C160", "title": "The polygon of an adapted support is where the foot is", "statement": "The support polygon of the support whose footstep was moved is the one of the feet at their new place. False when the polygon of the support, or of the footstep, was computed before (plan() computes it in place): the old polygon is kept. True for supports whose polygons were never read.", "quantifier": "All successful calls of update_supports, all convex hull functions.", "why_tests_cant": "Depends on the history of the object: the polygons that were read before.", "anchors": ["src/placo/humanoid/walk_pattern_generator.cpp:774-777", "src/placo/humanoid/footsteps_planner.cpp:42-51", "src/placo/humanoid/footsteps_planner.cpp:109-136"]}
{"id": "C161", "title": "The foot that stands is not moved by the adaptation of a step", "statement": "The foot on which the robot stands keeps its place in the supports that update_supports() returns. False for the supports that make_supports gives when there are double supports: the first footstep of the double support that follows a step is the standing foot, and this one is moved. True when the first footstep of the second support is of the other side.", "quantifier": "All successful calls of update_supports.", "why_tests_cant": "All the supports and all the measured DCMs.", "anchors": ["src/placo/humanoid/walk_pattern_generator.cpp:774-777", "src/placo/humanoid/footsteps_planner.cpp:233-287"]}
{"id": "C162", "title": "The zone of the next foot is mirrored between left and right", "statement": "On the left foot, the next foot is put in the image of op_space_polygon in the sagittal plane. False: the polygon is turned by half a turn (both coordinates change sign), so a zone in front of the right foot becomes a zone behind the left foot; a witness steps backward although the polygon is in front. True when the polygon is its own image when x changes sign. (The mirrored copy of dcm_offset_polygon is computed but never used: it is the same polygon on both sides.)", "quantifier": "All polygons, all successful calls.", "why_tests_cant": "All polygons and all points.", "anchors": ["src/placo/humanoid/walk_pattern_generator.cpp:729-758"]}
{"id": "C163", "title": "Frame tasks are safe and independent, and lead the frame to the target", "statement": "A program that makes, configures, moves and removes frame tasks (or relative frame tasks) never meets undefined behaviour if, and only if, it uses each of them between its creation and its removal. Each frame task then has the last target, name, priority and weights that were given to it, whatever was done to the others; the solver has exactly the position and orientation tasks of the frame tasks that were not removed, and the tasks made by other calls. A priority that does not exist throws a runtime_error and only the name of the position task changes. A solver that has these tasks and succeeds leads a frame whose task is hard straight to its target: the position in a unit of time, the orientation by a rotation of constant axis.", "quantifier": "All histories of calls, all frames, targets whose linear part is a rotation, names, priorities and weights, all robots and solver libraries that meet their contracts.", "why_tests_cant": "All histories of calls, in which pointers are shared between objects, and all robots.", "anchors": ["src/placo/kinematics/frame_task.cpp", "src/placo/kinematics/relative_frame_task.cpp", "src/placo/dynamics/frame_task.cpp", "src/placo/dynamics/relative_frame_task.cpp", "src/placo/kinematics/kinematics_solver.cpp:75-96", "src/placo/kinematics/kinematics_solver.cpp:461-474"]}
{"id": "C164", "title": "A log of the sensors is replayed on the robot", "statement": "Reading the sensors of a log at a time succeeds exactly when the log has the values of all actuated joints, of the pressures of both feet (and of the IMU if it is used). While a log is read at a list of times, every joint has the angle of the log, the robot stands on the foot that carries more weight (it stays on the current one otherwise) whose frame in the world does not slide and stays on the ground, and the trunk has the orientation that the IMU tells; the robot does not turn if the IMU is not used.", "quantifier": "All logs, lists of times, joints, sources of angles, all robots whose geometry is rigid, both uses of the IMU.", "why_tests_cant": "All logs and lists of times: the position of the support depends on all that was read before.", "anchors": ["src/placo/humanoid/humanoid_robot.cpp:237-303", "src/placo/humanoid/humanoid_robot.cpp:86-172"]}
{"id": "C165", "title": "The velocities replayed from a log are the measured ones", "statement": "When joint velocities are given with a log, the velocities of the joints are these, and the velocity of the floating base is such that the support is still and the trunk turns at the rate of the gyroscope, in every motion of the robot with this velocity. Velocities are ignored only when they are empty.", "quantifier": "All logs, velocities, robots whose geometry is rigid, and motions that pass through the configuration with this velocity.", "why_tests_cant": "All robots and motions; derivatives cannot be sampled.", "anchors": ["src/placo/humanoid/humanoid_robot.cpp:237-303"]}
{"id": "C166", "title": "Comparing footsteps and supports", "statement": "Comparing footsteps, and supports, is an equivalence relation. Equal footsteps are of the same foot, and their frames are the same but for 1e-12 relatively; supports are equal exactly when they have as many footsteps, equal one by one. The sizes, polygons, times and flags do not count.", "quantifier": "All footsteps and supports.", "why_tests_cant": "All frames.", "anchors": ["src/placo/humanoid/footsteps_planner.cpp:96-99", "src/placo/humanoid/footsteps_planner.cpp:212-227"]}
{"id": "C167", "title": "A kick goes from its start to its target", "statement": "The trajectory of a kick is at the start at its first time and at the target at its last time.", "quantifier": "All sides, times, starts, targets and frames.", "why_tests_cant": "All starts and targets.", "anchors": ["src/placo/humanoid/kick.cpp:6-44"]}
{"id": "C168", "title": "References to the variables and constraints of a problem", "statement": "A reference returned by add_variable, add_constraint or add_limit can be used until the variables (or the constraints) of the problem are cleared, or the problem is destroyed, and not after; every variable and constraint added is deleted exactly once, at the latest when the problem is destroyed. This remains so when the problem is copied and the copy is destroyed.", "quantifier": "All histories of add, clear, use, solve and copy operations.", "why_tests_cant": "All histories; reading freed memory often goes unnoticed in a test.", "anchors": ["src/placo/problem/problem.cpp:9-92", "src/placo/problem/problem.h"]}
{"id": "C169", "title": "Mentioning the solver of the walk tasks in Python is harmless", "statement": "Reading the attribute solver of a WalkTasks object, without using it, changes nothing to the tasks of the walk nor to what the next calls do.", "quantifier": "All states of walk tasks reached by initialising, updating and removing tasks.", "why_tests_cant": "All histories; the memory freed is still readable most of the times.", "anchors": ["bindings/expose-walk-pattern-generator.cpp:135-136", "src/placo/kinematics/kinematics_solver.cpp:18-21", "src/placo/humanoid/walk_tasks.cpp"]}
{"id": "C170", "title": "Objects bound to a Python name can be used", "statement": "While a Python program holds an object of the library, calling it does not read an object that was collected, whatever other names were deleted in the meantime.", "quantifier": "All Python programs (sequences of constructions, calls, and deletions of names).", "why_tests_cant": "All programs and orders of collection.", "anchors": ["bindings/expose-kinematics.cpp:20-140", "bindings/expose-dynamics.cpp:91-160", "bindings/expose-problem.cpp:86-111", "bindings/expose-footsteps.cpp:99-106", "bindings/expose-walk-pattern-generator.cpp:67-195"]}
{"id": "C171", "title": "A Python attribute reads as the value assigned", "statement": "Assigning an attribute that has a setter makes it read as the value assigned and leaves all other attributes of the object unchanged; assigning one without a setter raises.", "quantifier": "All attributes of all classes exposed to Python (inherited attributes included), all objects and values.", "why_tests_cant": "Every pair of attributes of 86 classes; nobody writes a test of every setter.", "anchors": ["bindings/expose-dynamics.cpp", "bindings/expose-footsteps.cpp", "bindings/expose-kinematics.cpp", "bindings/expose-parameters.cpp", "bindings/expose-problem.cpp", "bindings/expose-robot-wrapper.cpp", "bindings/expose-tools.cpp:89-91", "bindings/expose-walk-pattern-generator.cpp", "bindings/expose-dynamics.cpp:79-81"]}
{"id": "C172", "title": "Torques by joint", "statement": "The dictionaries returned to Python by static_gravity_compensation_torques_dict, torques_from_acceleration_with_fixed_frame_dict, get_torques_dict and tau_dict have exactly one item for each joint but the floating base: the effort of this joint in the vector the corresponding function computes. For a robot at rest whose joints are not accelerated, the first two are the same.", "quantifier": "All robots (whatever the order and the sizes of their joints), frames, accelerations, forces and solutions of the dynamics solver.", "why_tests_cant": "All robots: the offsets of the joints depend on the model, and two of the four vectors do not start at the same place.", "anchors": ["bindings/expose-robot-wrapper.cpp:82-112", "bindings/expose-robot-wrapper.cpp:200-212", "bindings/expose-dynamics.cpp:30-40", "src/placo/model/robot_wrapper.cpp:712-764"]}
{"id": "C173", "title": "set_joints is set_joint for each item", "statement": "set_joints(d) on a joints task is the same as calling set_joint for each item of d: the joints of d get these targets, the others are unchanged.", "quantifier": "All dictionaries, all tasks of both solvers in any state.", "why_tests_cant": "All dictionaries and states.", "anchors": ["bindings/expose-utils.hpp:77-100", "bindings/expose-kinematics.cpp:203-206", "bindings/expose-dynamics.cpp:227-233", "src/placo/dynamics/joints_task.cpp:10-55"]}
{"id": "C174", "title": "The robot of a solver, in Python, is the robot", "statement": "In Python, the attribute robot of a solver is the robot the solver was made with: calling a method through it has the effect of calling it on the robot, and gives the same exception.", "quantifier": "every robot, every method of it, and every sequence of statements that use the attribute, what it returned, and the robot itself", "why_tests_cant": "A test calls one method through the attribute; whether the object returned is the robot, a copy of it, or something in between shows only on some sequences of calls.", "anchors": ["bindings/expose-dynamics.cpp: DynamicsSolver.robot", "bindings/expose-kinematics.cpp: KinematicsSolver.robot", "src/placo/model/robot_wrapper.h: RobotWrapper::data"]}
{"id": "C175", "title": "Questions do not change the answers", "statement": "A program that calls update_kinematics between a change of the state and the next question gets, to every question (frames, Jacobians, center of mass, mass matrix, collisions, ...), the answer for the current state, whatever it asked before.", "quantifier": "every program that follows this discipline, every content of the workspace of the robot, and every way in which the kinematics library writes in it", "why_tests_cant": "The workspace is shared by all the questions and written by most of them: the property is about all sequences of questions, and about all versions of the library.", "anchors": ["src/placo/model/robot_wrapper.cpp: update_kinematics, compute_hessians, com_jacobian, mass_matrix, frame_jacobian, self_collisions"]}
{"id": "C176", "title": "The contacts of a dynamics solver", "statement": "The contacts of a dynamics solver are those the user added and did not remove, in the order in which they were added, each as it was made with the last value given to each of its attributes. get_contact(i) is the i-th of them and any other index raises. After a successful solve, each active unilateral point or planar contact pushes, inside its friction pyramid, with the pressure point in the rectangle given by the user, and an external wrench is the one given. A planar contact without length or width makes the solve raise and changes nothing.", "quantifier": "every program that adds contacts, writes their attributes and removes them, every index, every robot, tasks and back-ends within their contracts", "why_tests_cant": "The meaning of a contact depends on the whole history of calls: which were removed, and which value of each attribute was the last.", "anchors": ["src/placo/dynamics/dynamics_solver.cpp: add_point_contact ... add_task_contact, remove_contact", "src/placo/dynamics/contacts.cpp", "bindings/expose-dynamics.cpp: count_contacts, get_contact"]}
{"id": "C177", "title": "The errors reported by kinematics tasks", "statement": "The error a kinematics task reports (error() and error_norm()) is that of the robot and of the target at the time it is asked. For a position or center of mass task on all axes its norm is the distance to the target, and it is zero exactly when the target is reached; for a joints task it is zero exactly when each joint is at its target.", "quantifier": "every program that adds tasks, changes their targets, moves the robot, solves and dumps the status of the solver, every task and every robot", "why_tests_cant": "What is reported depends on the history of calls: which call computed the error last, and what changed since.", "anchors": ["src/placo/kinematics/task.cpp: error, error_norm", "src/placo/kinematics/kinematics_solver.cpp: solve, dump_status", "bindings/expose-kinematics.cpp: Task"]}
{"id": "C178", "title": "Planners follow their last configuration and the current parameters", "statement": "A footsteps planner plans according to the parameters at the time it plans and to its last configuration, exactly as a planner created and configured at that time would, whatever other planners, configurations and parameters came before. Planning with a planner that was never configured raises an exception.", "quantifier": "every program that creates planners of both kinds on the same parameters, changes the parameters, configures the planners in any order and plans, from any feet", "why_tests_cant": "The planner keeps a reference to the parameters and a copy of some of them: what it does depends on the order in which it was created, the parameters were changed and it was configured.", "anchors": ["src/placo/humanoid/footsteps_planner_naive.cpp: FootstepsPlannerNaive, configure, plan_impl", "src/placo/humanoid/footsteps_planner_repetitive.cpp: configure, plan_impl", "bindings/expose-footsteps.cpp"]}
{"id": "C179", "title": "The trunk of a walk turns smoothly with the feet", "statement": "In a planned or replanned walk, the orientation of the trunk is at every time a heading around the vertical followed by the trunk pitch of the parameters. The heading is continuous with a continuous rate, and the reported yaw is this heading. It starts along the first support at rest (or with the heading and the rate of the walk it replaces), is at rest along the support at the end of every double support (or along the landing foot at the end of every step, for a gait without double support), turns in one direction and by at most half a turn between two such stops, and is constant before and after the walk. When the feet are parallel the trunk is along the feet.", "quantifier": "every sequence of supports that a walk can have, parameters, initial CoM, start time, walk that is replaced, and every time", "why_tests_cant": "The heading is a spline whose points are added while the supports are planned, with yaws unwrapped step after step: a wrong point shows only at some times of some walks.", "anchors": ["src/placo/humanoid/walk_pattern_generator.cpp: get_R_world_trunk, get_yaw_world_trunk, planDoubleSupportTrajectory, planSingleSupportTrajectory, planFeetTrajectories, plan, replan"]}
{"id": "C180", "title": "Following a walk with the tasks of the walk", "statement": "On a walk that was planned, or replanned with success, updating the tasks of the walk at any time is defined and makes them ask for exactly the motion of the walk: both feet and the trunk at this time, and the CoM (or the trunk) com_delay later, shifted as the user asked. This holds for any number of updates, at times in any order, and the settings of the user stay. The motion is continuous, and asks for the footstep while a foot is on the ground. When a walk is replaced by a replanned one that stands where the former is, no target jumps. The DCM controller changes nothing while the measured DCM is the planned one. Away from the plan, the CoM is asked on the side on which the measured DCM is: shifted by the law of the PID controller applied to the measured DCM minus the planned one, the rest being asked as without the controller.", "quantifier": "every walk, state of the tasks reached by any calls, list of poses and times, com_delay, com_x, com_y, mode, and gains of the controller", "why_tests_cant": "The targets come from splines and from an integrated jerk at all times, for walks of any length, and from a history of updates, mode changes and replannings.", "anchors": ["src/placo/humanoid/walk_tasks.cpp: update_tasks, update_tasks_and_pid", "src/placo/humanoid/walk_pattern_generator.cpp: plan, replan, get_T_world_left, get_T_world_right, get_p_world_CoM, get_R_world_trunk, get_p_world_DCM"]}
{"id": "C181", "title": "What a dynamics solver leaves in its tasks and contacts", "statement": "The error and its derivative that a task of the dynamics solver reports are those of its current target and of the current robot (the masked difference to the target and its derivative along any motion; for joints the difference of positions and of velocities, for gears that of the target and its sources, for torques zero), and the wrench that a contact reports is the one it applies in the solution in force, none when it is not active. What the code gives: the errors are the current ones right after dump_status, and those of the state before the solve after any solve that does not raise, but they do not follow later changes of the target or of the robot; the wrench is the one of the last solution in which the contact was active, and a contact that is disabled keeps it, even after later solutions.", "quantifier": "every program that adds and changes tasks, contacts, settings and the robot, solves with or without success or exception, and prints the status; every back-end", "why_tests_cant": "The values are members that earlier calls wrote: which one they come from depends on the whole history, including calls that failed.", "anchors": ["src/placo/dynamics/dynamics_solver.cpp: solve, dump_status", "src/placo/dynamics/task.h: error, derror", "src/placo/dynamics/contacts.h: wrench", "bindings/expose-dynamics.cpp: error, derror, wrench"]}
{"id": "C182", "title": "A robot is read from the model the user names, with the collision pairs beside it", "statement": "The model, the collision objects and the visual objects of a new robot come from one description: the text the user gave, else the file at the path, else robot.urdf (robot.xml with the mjcf flag) in the directory at the path; with collision_as_visual the visual objects are those for the collisions. The pairs tested are none with ignore_collisions, else those of collisions.json in the directory of the model, else all of them. A text with the mjcf flag raises runtime_error, a description that is missing raises. What the code gives: this holds when the path is that of a directory or has a slash; with the bare name of a file of the working directory (or an empty path) the pairs are looked for in collisions.json at the root of the disk, and the file beside the model is ignored.", "quantifier": "every disk, working directory, path, flags, text, and every result of the parsers", "why_tests_cant": "The file that is read depends on the form of the path (absolute, relative, with slashes repeated, bare name), on the flags and on what the disk has at several places.", "anchors": ["src/placo/model/robot_wrapper.cpp: RobotWrapper::RobotWrapper", "src/placo/model/robot_wrapper.h: Flags", "src/placo/tools/utils.cpp: file_exists"]}
{"id": "C183", "title": "A name the robot does not have is reported", "statement": "Every call of a robot that takes the name of a frame or of a joint answers for the first frame (the joint) of that name, and raises runtime_error, changing nothing, when the robot has none. The names that are frames are exactly those listed by frame_names(); get_T_a_b(a, b) takes the placement of a to that of b. What the code gives: all the calls about frames and about the positions and position limits of joints raise; the calls about the velocities, accelerations, velocity and torque limits, rotor inertias, gear ratios, sizes and Jacobians of joints, and get_frame_hessian, are undefined behaviour with an unknown name.", "quantifier": "every robot, every one of the 26 calls by name, every name and value", "why_tests_cant": "Any string can be given, and the calls share no code path: a test of one of them tells nothing of the others, and reading out of the model often seems to work.", "anchors": ["bindings/expose-robot-wrapper.cpp: exposeRobotType", "src/placo/model/robot_wrapper.cpp: get_frame_index, get_joint_offset, get_joint_v_offset, get_T_a_b, relative_position_jacobian, frame_names"]}
{"id": "C184", "title": "Reaching the initial pose ends within the limits", "statement": "reach_initial_pose (a hundred solves, the first eleven after some noise) returns, with the tasks of the walk (all soft, nothing masked or constrained) and a robot within its joint limits, whatever noise is drawn; when it returns with the joint limits on, every joint is within its limits, wherever the robot started; if a solve fails, its exception comes out and the robot is the one for which it failed, with its kinematics up to date. When it returns, the frames the robot reports are those of its configuration. What the code gives: the limits hold for joints with one number in q and one in v (C62); when it returns, the frames reported are those of the configuration before the last displacement, as the kinematics are updated before each solve and not after.", "quantifier": "every robot, solver, tasks, random draws, correct answers of the two back-ends (different at each call)", "why_tests_cant": "The hundred iterations depend on random configurations and on the back-ends; a test sees one sequence of them, and the last displacement is usually too small to be seen.", "anchors": ["src/placo/humanoid/walk_tasks.cpp: WalkTasks::reach_initial_pose", "src/placo/model/robot_wrapper.cpp: add_q_noise", "src/placo/kinematics/kinematics_solver.cpp: solve"]}
{"id": "C185", "title": "The flag scaled of a walk decides the priority of its tasks", "statement": "At any moment, the tasks that a walk has in a solver have the priority the flag scaled of WalkTasks says: all scaled when it is true, all soft when it is false. (False of the code when the flag is written while the tasks are there: a task keeps the priority of the moment it was made, so that after a change of trunk_mode the solver has tasks of both priorities.)", "quantifier": "every history of initialize_tasks, update_tasks, update_com_task, remove_tasks, writes of trunk_mode, com_x, com_y and scaled, mixed with other careful calls on the solver", "why_tests_cant": "it ranges over all the orders in which the flag, the mode and the tasks are changed", "anchors": ["src/placo/humanoid/walk_tasks.cpp: WalkTasks::initialize_tasks, WalkTasks::update_com_task, WalkTasks::update_tasks", "src/placo/humanoid/walk_tasks.h: WalkTasks::scaled", "src/placo/kinematics/frame_task.cpp: FrameTask::configure", "src/placo/tools/prioritized.cpp: Prioritized::configure"]}
{"id": "C186", "title": "Rotors and gears in the mass matrix", "statement": "mass_matrix() is symmetric and is the mass matrix of the bodies plus, on the diagonal, the inertia of each rotor times the square of its gear ratio: the kinetic energy it gives is that of the bodies plus that of rotors turning at the speed of their joint times the ratio of the gear, so that rotors of nonnegative inertia never lower it. After any history of set_rotor_inertia, set_gear_ratio and writes of the state and of the limits, the entry of a joint uses the last inertia and the last ratio given for it, and the rest of the robot is what it would be without these calls.", "quantifier": "every robot, every velocity, and every history of calls on joints the robot has", "why_tests_cant": "it ranges over all robots, velocities and histories", "anchors": ["src/placo/model/robot_wrapper.cpp: RobotWrapper::mass_matrix, RobotWrapper::set_rotor_inertia, RobotWrapper::set_gear_ratio"]}
{"id": "C187", "title": "The timings of a walk computed with doubles", "statement": "Computed with doubles, each operation being rounded, the parts of a planned walk still follow each other without gap or overlap: each starts at the very double at which the previous one ends, and a query at any time of the plan is answered from a part that contains it. The end of the plan differs from the exact sum of the durations by at most 5 roundings and one for each support, in relative value. If each support lasts at least 2^-51 of the end time, the parts start at different times and only the LIPM of the first one starts from the given position of the CoM; else a step may be lost in the rounding, and the LIPM of a later part restarts from there. A part has at least one timestep. The number of timesteps of a part, and that of a double support, is at most one away from the value of the formula without rounding; they can differ.", "quantifier": "every starting time, list of supports and parameters that are doubles, durations and time ratios being 0 or at least 2^-100, and counts that fit an int", "why_tests_cant": "it ranges over all doubles and all numbers of supports; the rounding errors add up with the length of the plan", "anchors": ["src/placo/humanoid/walk_pattern_generator.cpp: WalkPatternGenerator::plan_com, WalkPatternGenerator::support_default_timesteps, WalkPatternGenerator::support_default_duration", "src/placo/humanoid/humanoid_parameters.cpp: HumanoidParameters::dt, HumanoidParameters::double_support_timesteps, HumanoidParameters::startend_double_support_timesteps"]}
{"id": "C188", "title": "A replanned support never has more than its whole duration elapsed", "statement": "However often a support is replanned, at times of the part planned for it, its elapsed ratio stays from 0 to 1, so that the part planned from there does not end before it starts. With doubles this holds after one replan. After more of them the ratio may be over 1, by at most 2^-50, and what remains of the support negative, over -2^-49 of its duration: a step of 0.3 s planned at 0 and replanned at 0.03 and 0.3 has 1 + 2^-52 of it elapsed, and its part ends before it starts. It is the time from the start of the support to the last replan over its duration, up to 8 roundings and one for each replan, when the times are spaced by at least 2^-100 and the duration is at most 2^100.", "quantifier": "every support and parameters that are doubles (durations and time ratios 0 or at least 2^-100), and every number of replans at times that are doubles of the part planned by then", "why_tests_cant": "the rounding errors depend on every bit of the times; it ranges over all doubles and all histories of replans", "anchors": ["src/placo/humanoid/walk_pattern_generator.cpp: WalkPatternGenerator::replan_supports, WalkPatternGenerator::plan_com, WalkPatternGenerator::trim_old_trajectory"]}
{"id": "C189", "title": "Sampling an integrator with doubles", "statement": "Computed with doubles, Integrator.value, Trajectory.value and expr_t use a step of the integrator at every time, and the same one; before t_start they use the first state. From t_start to the end the state they give is that of a time at most 2^-50 of the elapsed time away from the one asked. The highest derivative at t_start + k dt is the input k: this fails, as with timesteps of 5 ms the input 28 is given at 29 dt. It is always that of the timestep or of a neighbour, and that of the timestep itself at 2^-50 (in relative value) of its ends.", "quantifier": "every number of timesteps, timestep, start and time that are doubles, the timestep at least 2^-100 and the number of timesteps to the time fitting an int; every list of inputs", "why_tests_cant": "it ranges over all doubles; the failure depends on the last bits of the timestep", "anchors": ["src/placo/problem/integrator.cpp: Integrator::Trajectory::value, Integrator::expr_t"]}
{"id": "C190", "title": "Clipping a step with doubles", "statement": "Computed with doubles, ellipsoid_clip, box_clip and conic_clip give a step none of whose components is over its limit (walk_max_dx_forward or walk_max_dx_backward, walk_max_dy, walk_max_dtheta), not even by a rounding, or changes its sign. An allowed step is returned as it is, and the clipped step is allowed: both fail, as with the default limits a step of 7 mm forwards is shortened, and box_clip gives for a step of 40 mm to the side and 0.05 rad a step outside of the box. The result is the exact one (the step scaled by the largest factor up to 1 that makes it allowed) up to 13 roundings of each component, and is allowed when the limits are larger by a part in 2^50.", "quantifier": "every step and positive limits that are doubles, 0 or from 2^-100 to 2^100 in absolute value; the three clippings", "why_tests_cant": "it ranges over all doubles; the failures depend on the last bits of the step and of the limits", "anchors": ["src/placo/humanoid/humanoid_parameters.cpp: HumanoidParameters::ellipsoid_clip, HumanoidParameters::box_clip, HumanoidParameters::conic_clip"]}
{"id": "C191", "title": "The trajectory of the swing foot with doubles", "statement": "For a step that is not over, of positive duration and with a rise ratio below 1, SwingFootCubic::make_trajectory gives a trajectory. With doubles this fails: what remains of the step can be lost in the rounding of the time, and after replans at 0.03 and 0.3 of a step of 0.3 s planned at 0, the latter a time at which the step was not over, the elapsed ratio is over 1 and the exception leaves replan. It holds if what remains of the step, its plateau and what follows last at least 2^-48 of |t_start| + duration. Then the splines start at t_start with the given position and velocity, end at rest at the target at a time at most 2^-51 (in relative value) away from the end of the step, and are at rest at the height at the times of the plateau that are ahead, up to 2^-49.", "quantifier": "every start time, duration of at least 2^-100, elapsed ratio from 0 to 1 and rise ratio that are doubles; every height, positions and velocity", "why_tests_cant": "it ranges over all doubles; the failure needs replans at times chosen to the last bit", "anchors": ["src/placo/humanoid/swing_foot_cubic.cpp: SwingFootCubic::make_trajectory", "src/placo/humanoid/walk_pattern_generator.cpp: WalkPatternGenerator::plan_sgl_support"]}
{"id": "C192", "title": "Planning the feet with doubles", "statement": "Planning the feet of a new walk, whose first and last supports are double and whose supports all have a positive duration, succeeds; each swing foot leaves at the start of its part of the trajectory and is at rest at its target exactly when the part ends. With doubles both fail: the supports of a walk planned at a late time are lost in the rounding of the times, and adding the same time twice to a spline throws; and after a replan of a support with a time ratio, the swing can end after the part in which it is read. If the swings can be made (C191), a new walk is planned if and only if every part takes time, which holds if each support lasts at least 2^-51 of the time at which the walk ends. In every trajectory planned or replanned each part takes time, and each swing starts with its part and ends at rest at the frame of the flying foot in the next support, exactly at the end of the part if no part of the support had elapsed, or if it is the first part and has time ratio 1; the swing of a begun first part ends with it up to 2^-49 in relative value.", "quantifier": "every sequence of supports with timings that are doubles, every start time that is a double, every parameters, with and without an old trajectory", "why_tests_cant": "it ranges over all walks and all doubles; the failures need times and ratios chosen to the last bit", "anchors": ["src/placo/humanoid/walk_pattern_generator.cpp: WalkPatternGenerator::plan_feet_trajectories, plan_sgl_support, plan_dbl_support", "src/placo/humanoid/swing_foot_cubic.cpp: SwingFootCubic::make_trajectory"]}
{"id": "C193", "title": "Joint and velocity limits with doubles", "statement": "With joint limits enabled, a joint that starts within its limits stays within them however many solves are applied, and the speed a solve writes in the state is within the velocity limit, whatever displacements satisfy the constraints. With doubles both fail: a joint from -1 to 0.1 sent from -1 to its upper limit goes beyond it by rounding, after which the constraints refuse that it stays (if it is masked they hold only up to the tolerance of the back-end); and with dt = 0.01, a joint at 1 that moves by dt times its velocity limit of 1 has a speed over 1. What holds: after any number of solves the joint is within its limits up to 2^-51 of its range plus three times the tolerance; the limit is kept exactly by a solve without tolerance if it is between half and twice the position; the limits can always be satisfied in the next solve if the joint may move by 2^-50 of its range and six tolerances; the speed exceeds the limit by at most the tolerance and the rounding of the position divided by dt, up to 2^-50.", "quantifier": "every joint with one number in q and in qd whose limits are doubles, every position, every dt and flags, every tolerance, every history of solves and displacements that satisfy their constraints", "why_tests_cant": "it ranges over all doubles and histories of solves of any length; whether the errors add up cannot be seen on samples", "anchors": ["src/placo/kinematics/kinematics_solver.cpp: KinematicsSolver::compute_limits_inequalities, KinematicsSolver::solve", "src/placo/problem/expression.cpp: Expression::operator+, operator-, operator*, operator<="]}
{"id": "C194", "title": "The displacement of a naive step with doubles", "statement": "FootstepsPlannerNaive reduces the displacement asked of a foot by the largest factor that makes it accessible, so that each step is within accessibility_length and accessibility_width before the clipping to the ellipsoid. With doubles this fails: with an accessible length of 0.1 and a target 2.75 ahead the step is over 0.1. What holds: the target is found accessible exactly if it is in the accessible area, and the displacement is then the error itself, without rounding; in all cases both coordinates are reduced by the same largest factor up to two roundings, keep their signs, exceed the accessible lengths by at most 2^-51 in relative value, and a coordinate that is accessible is never increased.", "quantifier": "every accessible length and width and every error of position that are doubles, from 2^-100 to 2^100 in absolute value or, for the error, zero", "why_tests_cant": "it ranges over all doubles; the excess is of one unit in the last place for some lengths only", "anchors": ["src/placo/humanoid/footsteps_planner_naive.cpp: FootstepsPlannerNaive::plan_impl"]}
{"id": "C195", "title": "Repeated integrations with doubles", "statement": "After n calls of integrate(dt), a joint of constant speed has moved by n * speed * dt, and a joint of constant acceleration has gained n * dt * acceleration in speed. With doubles the first fails: a joint that moves by less than 2^-55 of its position in one call never moves, however many calls there are. What holds: the position differs from q + n * speed * dt by at most (1 + 2^-53)^(n+1) - 1 times |q| + n |speed| dt, the speed is kept, and likewise for the speed at constant acceleration; the position is then q + n * speed * dt + n (n + 1) / 2 * acceleration * dt^2 up to 2 n + 2 roundings (each call uses the speed it has just computed) and the smallest doubles; a robot whose speed is not set does not move.", "quantifier": "every number of calls; every position, speed, acceleration and dt that are doubles, zero or at least 2^-100 in absolute value (the position or the initial speed: any double); joints with one number in q and in qd", "why_tests_cant": "it ranges over all doubles and any number of calls", "anchors": ["src/placo/model/robot_wrapper.cpp: RobotWrapper::integrate"]}
{"id": "C196", "title": "Velocity limits of DynamicsSolver with doubles", "statement": "With the velocity limits enabled, the speed of a joint after solve(integrate = true) is within its limit, whatever solves were made before. With doubles this fails, even with a back-end that satisfies the constraints exactly: a joint of speed -0.41 and limit 1.6 accelerated as much as allowed has a speed over 1.6 (dt = 0.125). What holds: after any number of solves, each satisfied by the back-end up to a tolerance t, the speed exceeds the limit by at most 2^-50 of it plus 6 t, which does not grow with the number of solves; and whatever the speed, even over the limit, the constraints of the next solve can be satisfied exactly.", "quantifier": "every velocity limit, speed and dt that are doubles, every number of solves, every sequence of dt and of accelerations found by the back-end, every tolerance; joints with one number in q and in qd", "why_tests_cant": "it ranges over all doubles and any history of solves", "anchors": ["src/placo/dynamics/dynamics_solver.cpp: DynamicsSolver::compute_limits_inequalities, DynamicsSolver::solve", "src/placo/model/robot_wrapper.cpp: RobotWrapper::integrate"]}
{"id": "C197", "title": "Joint limits over a history of dynamics solves", "statement": "With the joint limits enabled and a constant dt and qdd_safe, a joint that is within its limits is never over one of them by more than qdd_safe * dt^2, however many solve(integrate = true) are made, whatever the tasks, contacts, constraints and other limits of each of them, and whether they succeed or not. A joint that is over a limit is back before it after at most three more solves that succeed. If dt changes from a solve to the next, the joint is never over a limit by more than 2 * qdd_safe * dt^2 for the longest dt.", "quantifier": "every robot with a floating base and correct integration of its joints, every joint with one number in q and in qd, every positive dt and qdd_safe, every number of solves, every settings of the solver at each of them, every correct back-end; real numbers", "why_tests_cant": "it ranges over any history of solves, with any problem at each of them", "anchors": ["src/placo/dynamics/dynamics_solver.cpp: DynamicsSolver::compute_limits_inequalities, DynamicsSolver::solve", "src/placo/model/robot_wrapper.cpp: RobotWrapper::integrate"]}
{"id": "C198", "title": "A joint held by a hard task converges when dt sqrt(kp) is small enough", "statement": "A joint with a hard joints task, a constant target at rest and the default (critical) damping converges to its target over successive solve(integrate = true), whatever its first position and speed and whatever else is in the solver, as long as the solves succeed and dt * sqrt(kp) < 2 sqrt(2) - 2 (about 0.83, that is dt < 26 ms with the default kp = 1000): after n solves the error is at most a constant times rho^n, with a rho < 1 that depends only on dt and kp. From this value on there are first states, as close to the target as one wants, from which the joint does not converge: its error is multiplied by the same number at each solve, which is at most -1, and under -1 above this value. With any damping kd > 0, the joint converges if 2 dt * kd + dt^2 * kp < 4, and does not from some first states if not; with kd = 0 it never does, unless it is at rest on its target.", "quantifier": "every robot whose joints are correctly integrated, every joint with one number in q and in qd, every target, first state, positive dt and kp, every number of solves, every other setting of the solver at each of them, every correct back-end; real numbers", "why_tests_cant": "it ranges over any number of solves and every dt and kp", "anchors": ["src/placo/dynamics/joints_task.cpp: JointsTask::update", "src/placo/dynamics/task.cpp: Task::get_kd", "src/placo/dynamics/dynamics_solver.cpp: DynamicsSolver::solve", "src/placo/model/robot_wrapper.cpp: RobotWrapper::integrate"]}
