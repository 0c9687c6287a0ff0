# Formal model of Rhoban/placo in Rocq

## Approach

* `double` is modelled by Coq's real numbers `R`. Rounding, overflow to infinity and NaN are outside the model,
  except where the code itself tests for them; there the test is an explicit input of the model. Doubles_model.v models the timings of
  a walk again with rounded operations (Flocq's binary64 format, to nearest even, without overflow): C187.
* `int` is modelled by `Z` or `nat`. Integer overflow is outside the model.
* A C++ call has an outcome: `Ok value`, `Throw exception` or `UB` (out-of-range access, size-mismatched Eigen
  operation, dangling pointer). `UB` is a separate value, so that "no undefined behaviour" is a provable statement.
* Objects with internal state are records. A method maps a state to a new state and an outcome, so that what
  happens to the object when the method throws is visible.
* External libraries (eiquadprog, Eigen QR/SVD/matrix exponential, pinocchio, boost convex hull) are oracles: section
  variables which become universally quantified arguments of every theorem. Whatever is assumed about an oracle is an
  explicit hypothesis in the theorem's statement.
* Files: `X_model.v` holds definitions only, each citing the source lines. `X_spec.v` (when needed) holds the small
  independent specification. `X_proofs.v` holds lemmas. `X_props.v` holds the final theorems with their non-vacuity
  examples and `Print Assumptions`.
* A property the code does not have is recorded by a `..._refuted` theorem with a witness, together with the exact
  behaviour of the code and the strongest part that does hold (`..._partial`).

## Plan per property

| id | property | file family | how |
|----|----------|-------------|-----|
| C01 | Adding an interval to a sparsity pattern is set union and keeps the pattern canonical | Sparsity.v | interval lists over Z, loop with `inserted` flag as a fold; induction on the list with a sortedness invariant, then induction on the history |
| C02 | Sum of sparsity patterns is the union of columns | Sparsity.v | fold of C01 |
| C03 | Column-sparsity detection covers exactly the non-zero columns | Sparsity.v | column scan as a loop with in-run state; invariant on the scanned prefix |
| C04 | Decision variables of a problem occupy disjoint ranges that exactly tile the unknown vector | Variables.v | history = list of operations; induction |
| C05 | A variable's expression reads exactly its own slice | Expression.v | matrix as (rows, cols, nat->nat->R), sums by induction; out-of-range writes are the UB outcome |
| C06 | Expression arithmetic commutes with evaluation | Expression.v | evaluation homomorphism, per-operator lemma |
| C07 | Row-count mismatches in expression sums are rejected and 1-row constants broadcast | Expression.v | case analysis of the outcome type |
| C08 | vector minus expression has the mathematical sign | Expression.v | refuted by a witness, plus theorem saying what the code returns |
| C09 | expression minus scalar subtracts the scalar from each row | Expression.v | refuted (UB outcome) for rows <> 1, proved for rows = 1 |
| C10 | Product of expressions is defined exactly for scalar-times-constant | Expression.v | case analysis |
| C11 | Stacking, slicing and summing expressions act on rows of the value | Expression.v | sums |
| C12 | mean() evaluates to the arithmetic mean of the rows | Expression.v | refuted by a witness, plus exact characterisation |
| C13 | Comparison operators build constraints with the meaning they are written with | Expression.v | per-overload lemma |
| C14 | add_limit bounds the absolute value of every row | Problem.v | row splitting |
| C15 | Soft equality constraints contribute exactly their weighted squared residual to the cost | Problem.v | fold over constraint list, quadratic form algebra |
| C16 | The use_sparsity optimisation does not change the problem being solved | Problem.v | refuted by a two-variable witness; proved for patterns with one block |
| C17 | Hard inequalities are passed to the QP solver unchanged and slack rows keep slacks non-negative | Problem.v | row index bookkeeping by induction on the list |
| C18 | Soft inequalities penalise only violations | Problem.v | completing the square row-wise |
| C19 | Equality elimination by QR describes exactly the feasible set | Problem.v | QR is an oracle (Section variable) with its contract as an explicit hypothesis |
| C20 | Solve returns an optimum of the problem the user wrote | Problem.v | QP back-end is an oracle with optimality as an explicit hypothesis; composition of C15/C17/C19 |
| C21 | A failed solve never updates variable values | Problem.v | case analysis on the outcome of solve, adversarial oracle |
| C22 | Solutions that violate hard equalities or contain NaN are never returned as success | Problem.v | adversarial oracle |
| C23 | Active-set reporting is faithful | Problem.v | index bookkeeping |
| C24 | Ill-formed constraints are reported as QPError | Problem.v | proved for soft/inequality constraints; refuted (UB) for hard equalities |
| C25 | Integrator state expressions equal the simulated discrete system | Integrator.v | induction on steps |
| C26 | Requesting any documented step and derivative order is safe | Integrator.v | outcome case analysis; refuted at step=N, diff=order |
| C27 | Integrator trajectories are continuous and pass through the key-frames | Integrator.v | matrix exponential as oracle with semigroup law, instantiated with the explicit exponential of the shift matrix |
| C28 | Trajectory::duration is the length of the horizon | Integrator.v | refuted; exact value proved |
| C29 | Integrator trajectories always reflect the last solve | Integrator.v | state machine, induction over histories |
| C30 | Polynom::value(t, d) is the d-th derivative | Tools.v | Coquelicot is_derive_n by induction |
| C31 | ProblemPolynom expressions agree with the polynomial they define | Tools.v | algebra |
| C32 | Polygon constraint holds iff the point keeps the margin to every edge | Tools.v | algebra on edge normals |
| C33 | Cubic splines interpolate and are C1 | Spline.v | cubic algebra, list induction, Coquelicot continuity/derivatives |
| C34 | Spline points are strictly increasing in time; a rejected point changes nothing | Spline.v | history induction |
| C35 | Angular splines never take the long way round | Spline.v | history induction on top of C37 |
| C36 | CubicSpline::duration covers the points | Spline.v | refuted in general (UB / stale), proved after a query |
| C37 | wrap_angle returns the representative in (-pi, pi] | Tools.v | atan2 defined from atan; trigonometric case analysis |
| C38 | safe_acos is total and agrees with acos | Tools.v | case analysis |
| C39 | Segment intersection parameters are correct | Tools.v | field algebra |
| C40 | half_line_pass_through tests the half-line of the object against the argument segment | Tools.v | refuted by witness; what the code tests is proved |
| C41 | Axis masks select exactly the requested rows | Tools.v | string induction |
| C42 | A rejected configuration changes nothing | Tools.v | refuted by witness; exact partial effect proved |
| C43 | flatten_on_floor keeps x, y and yaw and is idempotent | Geometry.v | rotation matrices as 3x3 real matrices |
| C44 | interpolate_frames hits both ends | Geometry.v | slerp as oracle with end-point contract |
| C45 | Step clipping yields an allowed step in the same direction and is idempotent | Params.v | real inequalities |
| C46 | Opposite-foot frames are mirror images at the feet spacing | Params.v | planar pose group |
| C47 | Footstep polygons are the rectangle around the foot frame, clockwise | Footsteps.v | planar geometry |
| C48 | Support polygons always correspond to the current frame | Footsteps.v | cache as explicit state; refuted by a history; invariant proved for the other operations |
| C49 | Footstep overlap test is complete | Footsteps.v | refuted by witness; soundness proved |
| C50 | clipped_opposite_footstep respects spacing and step limits | Footsteps.v | induction on the number of reductions |
| C51 | make_supports produces an alternating, connected walk | Footsteps.v | induction on the list of footsteps, phases given by ranks |
| C52 | Repetitive planner emits exactly the requested number of alternating steps | Footsteps.v | induction on n |
| C53 | Naive planner terminates and alternates sides | Footsteps.v | fuel = max_steps as in the code |
| C54 | Trajectory queries find the part that contains the time | WPG.v | loop invariant, explicit measure |
| C55 | Planned parts are contiguous in time and follow the supports | WPG.v | induction over the support list |
| C56 | Trajectory getters do not modify the trajectory | WPG.v | state-passing getters; refuted for get_prev_support, proved for the others |
| C57 | Foot velocity getters work at every time of the trajectory | WPG.v | refuted (throws in double support), proved for single supports |
| C58 | Swing foot trajectories start and land exactly with zero velocity | Swing.v | the linear systems have one solution each, given in closed form; M.inverse() is an oracle with a contract |
| C59 | SwingFootCubic lifts, holds and lands as parameterised | Swing.v | from the theorem on cubic splines (C33) |
| C60 | DCM and ZMP reported by the LIPM satisfy the inverted-pendulum equations | Lipm.v | induction over the chain, on top of the integrator model (C25, C27, C86) |
| C61 | Footstep / support side and frame queries are consistent | Footsteps.v | case analysis |
| C62 | Kinematics solutions respect masks and limits | Kin | builds Problem constraints; feasibility of the solution |
| C63 | Scaled tasks are followed in direction with a common factor in [0,1] | Kin | algebra of the scaled rows |
| C64 | A failed kinematics solve leaves the robot untouched, a successful one applies exactly the delta | Kin | state-passing solve, failure injection at every step |
| C65 | Gear and joints tasks are exact after one step | Kin | finite maps as association lists |
| C66 | Solvers own and free exactly what they created | Ownership | a heap with liveness, agreement with a book of expected contents as an invariant over every careful history; refuted for the dynamics solver |
| C67 | Dynamics results satisfy the equation of motion | Dyn | shape of the built problem (dform), then the values read back; refuted when damping is not zero |
| C68 | Dynamics solutions respect torque, velocity and joint limits | Dyn | the hard constraints of the built problem mean within_limits; optimum of a correct back-end is allowed |
| C69 | Unilateral contacts yield physically valid wrenches | Dyn | same, for contact_valid; ZMP by division |
| C70 | Tangential force weights penalise tangential forces | Dyn | cost of the built constraints, exactly; refuted for planar contacts |
| C71 | Line contacts can be used | Dyn | the call is undefined whatever the rest of the solver; the wrong row is read by zmp |
| C72 | Dynamics solve failure is reported and leaves the robot state unchanged | Dyn | case analysis of solve; integration through C113 |
| C73 | Acceleration-level tasks impose second-order error dynamics | DynTasks, Dyn_props2 | the residual of a hard task is zero (C68 machinery); derivatives of the error along a motion from the contracts of the Jacobians; closed form of the critically damped solution; refuted for relative positions of a turning frame and for self gears |
| C74 | Placing the robot by a frame puts that frame at the target | Robot | contract of the forward kinematics (frames = root * SE3(q) * joints); algebra of rigid transformations, quaternions of rotations |
| C75 | Joint accessors are independent | Robot.v | state record, joint table |
| C76 | Static gravity compensation requires no base torque | Robot.v | matrix algebra |
| C77 | Walk task errors report each task's own error | WalkTasks | refuted in every state; exact keys |
| C78 | Switching between CoM and trunk control keeps exactly one of the two tasks | WalkTasks | invariant over every history, on top of the ownership invariant |
| C79 | Task priorities round-trip through their names | Tools.v | case analysis on strings |
| C80 | Directions helpers return unit vectors | Tools.v | trigonometric identity |
| C81 | Consistent but redundant hard equalities are accepted | Problem.v | refuted: duplicate columns contradict the contract of a full-rank QR; success proved for independent equalities |
| C82 | Solver options never lead to undefined behaviour on well-formed problems | Problem.v | outcome analysis; refuted for rewriting off with hard equalities and soft inequalities (the equality rows are shorter than the unknowns) |
| C83 | Feasible problems are solved | Problem.v | positive definiteness of the assembled quadratic form, non-emptiness of the reduced feasible set |
| C84 | configure changes only the priority and the weight of a constraint | Expression.v | case analysis on strings |
| C85 | Trajectories solve the continuous system exactly between key-frames | Integrator.v | term-by-term derivative of the exponential series (Coquelicot power series) |
| C86 | For chains of integrators, value(t, d+1) is the derivative of value(t, d) | Integrator.v | powers of the shift matrix, C85 |
| C87 | expr_t rejects unsupported derivatives | Integrator.v | outcome analysis; refuted: diff > order is read out of range |
| C88 | Derivative coefficients fit in an int | Polynom.v | bound by the factorial; refuted at degree 13 |
| C89 | is_point_in_segment accepts the segment and only its neighbourhood | Tools.v | foot of the perpendicular, real algebra |
| C90 | is_parallel bounds the sine of the angle and is symmetric | Tools.v | real algebra |
| C91 | vel and acc of a spline are the derivatives of pos | Spline.v | gluing of derivatives; refutation outside the range |
| C92 | The components of a CubicSpline3D stay in lockstep | Spline.v | invariant over histories |
| C93 | interpolate_frames returns a rigid transformation | Geometry.v | quaternions, the two branches of slerp; refutation for almost equal orientations and a bound there |
| C94 | interpolate_frames turns at constant rate along the short way | Geometry.v | trace of the relative rotation in terms of quaternions |
| C95 | rotation_from_axis maps the axis onto the vector | Geometry.v | Rodrigues formula |
| C96 | optimal_transformation is the best rigid alignment | Geometry.v | Kabsch: trace bound for proper and improper orthogonal matrices, with a quaternion for the improper case |
| C97 | Phase durations are whole numbers of timesteps | Footsteps.v | std::round as the nearest integer, halves away from zero |
| C98 | overlap_clip predicts the step of the planner | Footsteps.v | equivariance of the reduction loop under floor motions |
| C99 | The naive planner reaches its targets | Footsteps.v | history invariant; refutation by a plan that stops with a foot 2.5 cm from its target; exact arrival when the last step is allowed |
| C100 | Supports move rigidly | Footsteps.v | algebra of frames |
| C101 | Planning does not depend on the choice of the world frame | Footsteps.v | simulation between the loops |
| C102 | Truncated walks end on both feet | Footsteps.v | phases of C51; undefined behaviour at both end indices |
| C103 | SwingFootQuintic makes a smooth step | Swing.v | 18 equations split into three systems of six, each with one solution |
| C104 | Transforming a planned trajectory moves everything it describes | Wpg.v | algebra of rigid transformations |
| C105 | The planned CoM starts from the given state and moves continuously | Wpg.v | induction over the supports, pasting the trajectories of C60 |
| C106 | The ZMP of a planned walk stays in the support polygons | Wpg.v | induction over the supports; feasibility of the solution (C17, C20), meaning of in_polygon (C32) |
| C107 | joint_names lists the joints, and set_velocity_limits limits them all | Robot | induction over the list of joints |
| C108 | Relative poses, and relative_position_jacobian is the derivative of the relative position | Robot | contract of the frame Jacobians (they give the velocities of the frames); derivative of R^T (p_b - p_a) |
| C109 | Torques for an acceleration with a fixed frame satisfy the equation of motion | Robot | refutation on a concrete robot; exact equation; partial when the base is not pushed |
| C110 | The mass matrix is symmetric and includes the rotors | Robot | contract of crba (upper triangle); sums |
| C111 | Noise keeps the robot within its limits | Robot | convexity |
| C112 | Jacobians by name are those of the named frame or joint | Robot | case analysis; refutation on a concrete robot |
| C113 | integrate applies the acceleration, then the new velocity | Robot | contract of pinocchio::integrate on joints |
| C114 | The solution depends only on the question | Unique | strict convexity: the midpoint of two optima is feasible and cheaper; existence of correct back-ends by completeness of the reals (Gram-Schmidt, descent on active sets) |
| C115 | A kinematics solve gives the best displacement | Kin | the constraints added to the problem denote the tasks; optimality of Problem::solve |
| C116 | A kinematics solve depends only on what is asked | Kin | strict convexity; invariant of the variables of the problem kept between solves |
| C117 | Incompatible kinematics requests are reported and leave the robot as it was | Kin | soundness of the constraints and of the failure path |
| C118 | Compatible kinematics requests are answered | Kin | totality of each step; completeness of Problem::solve |
| C119 | Redundant kinematics requests are answered | Kin | refuted: the equalities are dependent and Problem::solve always refuses them |
| C120 | Robots without joints can be solved for | Kin | refuted: the limits are constraints without rows, which Problem::solve refuses |
| C121 | Walk tasks follow the trajectory they are given | WalkTasks | effect of the writes through the pointers of the invariant |
| C122 | The DCM controller is bounded and determined by its inputs | WalkTasks | induction over the steps; refuted for the first step, whose memory is not initialised |
| C123 | The initial pose is the requested one | WalkTasks | algebra on frames; targets written in the tasks |
| C124 | The dynamics solve is optimal | Dyn | the cost of the built problem is the sum of the penalties; optimum of a correct QP back-end |
| C125 | A free-floating body without joints can be solved | Dyn | the constraint on the joint torques has no row, and the problem refuses it; witness: free fall |
| C126 | External wrenches are applied exactly | Dyn | hard equality of the built problem read back |
| C127 | Torque tasks give the torques they are set to | Dyn | residual of the task in the torques of the result |
| C128 | Setting a gear keeps the gears of other joints (dynamics) | Dyn | the map after the call; witness with two targets |
| C129 | The dynamics solve succeeds exactly when it can | Dyn | completeness of the problem solver (C20) applied to the built problem |
| C130 | Kinematics tasks decrease their error at the first order | KinTasks | each row of A times the displacement is minus the derivative of its error, from the contracts of the Jacobians; the hard rows hold by the soundness of the solve |
| C131 | Orientation tasks turn frames towards their targets | KinTasks | derivatives of rotations along the motion; derivative of acos; exp3 of log3; singular inverse when the cross product is zero |
| C132 | What the kinematics constraints guarantee | KinCons | each row of a constraint is a gap plus its derivative along the motion, from the contracts of the Jacobians; hard rows hold by the soundness of the solve; the penalty is the soft cost of the row |
| C133 | What the regularization, kinetic energy and momentum tasks cost | KinReg | the state of the task after a history of calls is the fold of the calls; the cached matrix is invalidated by each of them; the rows are a square root of the weight matrix, or of the mass matrix (contract of the matrix square root) |
| C134 | Wheels roll without slipping | KinReg | the contact frame is a rotation and its origin is the lowest point of the circle (Cauchy-Schwarz); the action matrix gives the velocity of that point of the body in the axes of the contact frame |
| C135 | The yaw constraint limits the yaw | KinAngle | the derivative of atan2 along the motion, the relative angular velocity from the Jacobians of both frames; refuted when the x axis is not level |
| C136 | The cone constraint limits the tilt | KinAngle | the slices are turned so that the half number-th one contains the axis of b; the derivative of the angle is the angular velocity around the normal of that slice; refuted for odd numbers of slices and for aligned axes |
| C137 | The dynamics keep colliding bodies apart | DynCol | the derivative of the opening along a motion is the row of the constraint plus its bias; the opening is differentiated with the points and the direction fixed to the bodies; refuted inside the margin, where the code ignores the bias |
| C138 | A humanoid stays on its support | Humanoid | invariant (sound humanoid) over lists of calls, with the contract of the placements of the frames (frames_correct) |
| C139 | The IMU orients the trunk | Humanoid | composition of rigid placements |
| C140 | Humanoid torques satisfy the equation of motion | Humanoid | block elimination with a two-sided inverse; uniqueness by the left inverse; power of the forces with the contract of the local Jacobians |
| C141 | The velocity of the center of mass from the gyroscope | Humanoid | the stacked Jacobian determines the velocity of the base; uniqueness of the derivatives; refuted: the number of joints is written in the code and the argument is not used |
| C142 | The camera looks at its target | Humanoid | polar coordinates with atan2 and acos; refuted when the axes do not meet, because the distance of the camera to the pan axis is used as its distance to the tilt axis |
| C143 | DCM and ZMP are those of the linear inverted pendulum | Humanoid | derivatives |
| C144 | The dummy walk steps as it is asked to, and alternates its feet | Dummy_props | Invariant of the walk by induction on the calls; the landing from the model of the repetitive planner (C50, C52). |
| C145 | The targets of the dummy walk are continuous and keep the support still | Dummy_props | Closed form of the lift trajectory (from the model of the splines), interpolations of frames with vertical axes. |
| C146 | update_T_world_support moves the whole walk, and the robot | Dummy_props | From C74; refuted for the robot after update(), whose inverse kinematics leave the data of the robot out of date. |
| C147 | The manipulability task follows the gradient of the manipulability | Manip_props | Jacobi's formula for the derivative of a determinant (through the determinants of mathcomp), contracts of the Jacobians and Hessians of pinocchio and of the matrix inverse. |
| C148 | The collision pairs are those of the file | Collision_props | An invariant of the nested loops that add the pairs; refuted for the failures, that leave the robot with a part of the pairs of the file, or none. |
| C149 | Collisions and distances are given for every pair | Collision_props | Induction on the pairs. |
| C150 | A new robot is neutral, at rest, up to date, and has the limits of its file | Collision_props | From the definitions and C148; reading the URDF or MJCF file is not modelled, its result is an input. |
| C151 | A walk is planned exactly when the ZMP can be kept in the supports | WpgPlan_props | The problem given to the solver is built by induction on the supports: it is well-formed, has independent equalities (the LIPM is controllable in three timesteps) and its hard constraints hold exactly for the jerks of a possible walk; then C83 and C20. The feet are planned by induction with the last times of the yaw splines as invariant. |
| C152 | The feet of a planned walk | WpgFeet_props | Induction on the parts with the points of the yaw splines as invariant; then C33 to C35 (splines) and C37 (swing) give the motion between the points. |
| C153 | The feet of a replanned walk | WpgFeet_props | As C152, with the first part planned from the old walk. |
| C154 | A walk is replanned exactly when the ZMP can be kept in the supports | WpgReplan_props | As C151 from any state of the CoM; totality of the planning of the feet with an old walk. |
| C155 | A walk that cannot be replanned goes on | WpgReplan_props | The part under way is cut at the time of replanning; the invariant clocked is kept by planning, replanning and trimming. |
| C156 | Alternating footsteps give supports to walk on | WpgSupports_props | C51 gives the phases of the supports; alternation gives the rest, by induction on the phases. |
| C157 | Replanning the supports keeps the step under way | WpgSupports_props | Inversion of replan_supports, C156 and C153; the remaining time follows from the progress that replan_supports computes. |
| C158 | The ZMP that drives the DCM to its target | Adapt_props | The pendulum equation is solved (existence and uniqueness); the problem has no hard equality and its soft equality has contiguous columns, so C16 and C20 give an optimum. |
| C159 | A step is adapted to the measured DCM | Adapt_props, Adapt_props2 | Symbolic execution of the construction of the problem; its hard constraints are the possible steps with tau = exp(omega T); feasibility and independence of the dynamics when the frame of the foot is not vertical; C16_rewritten_partial for the optimum. |
| C160 | The polygon of an adapted support is where the foot is | Adapt_props | Inversion of a successful call; witness with a support whose polygon is known. |
| C161 | The foot that stands is not moved by the adaptation of a step | Adapt_props | Inversion of a successful call; witness made by make_supports. |
| C162 | The zone of the next foot is mirrored between left and right | Adapt_props | The zone of the left foot is the image of the polygon by a half turn; witness. |
| C163 | Frame tasks are safe and independent, and lead the frame to the target | FrameTasks_props | Simulation between the memory of the tasks and a list of independent objects, by induction on the calls; C130 and C131 for the motion. |
| C164 | A log of the sensors is replayed on the robot | Replay_props | Induction on the times, with the placement of the support of C133 and the joints of C75. |
| C165 | The velocities replayed from a log are the measured ones | Replay_props | The inverse of the stacked Jacobian of the support and of the gyroscope, as in C134. |
| C166 | Comparing footsteps and supports | SameSteps_props | Algebra of the norm of the differences; transitivity is refuted by three footsteps. |
| C167 | A kick goes from its start to its target | SameSteps_props | Refuted: the points of the trajectory are commented out, so that it is null at all times. |
| C168 | References to the variables and constraints of a problem | ProblemMemory_props | A heap that knows what is allocated and freed; an invariant over histories: the two vectors of the problem hold, without repetition, exactly what is alive. The last sentence is refuted. |
| C169 | Mentioning the solver of the walk tasks in Python is harmless | PySolver_props | Refuted: the getter returns the solver by value, and the destructor of the copy deletes the tasks of the original. What the following calls do is characterised, with the ownership model of C66 and the walk tasks of C121. |
| C170 | Objects bound to a Python name can be used | PyLife_props | Reference counting with the call policies of the bindings (return_internal_reference keeps its owner alive, constructors taking a reference keep nothing alive): an invariant over programs. Holds when the arguments kept by reference are kept by the program; refuted otherwise. |
| C171 | A Python attribute reads as the value assigned | PyAttr_props | The table of all declarations of attributes; a decidable criterion (the member written is the member read, by an accessor of the right type, and no other attribute of the class reads it) implies the property, and is evaluated on the table. Two declarations fail it. |
| C172 | Torques by joint | Dicts_props | Induction on the joints; composed with the theorems on the vectors (C76, C109, C140, C67). |
| C173 | set_joints is set_joint for each item | Dicts_props | Induction on the items. For the dynamics the three maps are modelled, and shown to refine the model of C73. |
| C174 | The robot of a solver, in Python, is the robot | PyRobot_* | a heap of copies with one shared workspace; refuted for the dynamics solver, which returns a copy that shares the computed frames only |
| C175 | Questions do not change the answers | Workspace_* | slots tagged with the state they were computed for; invariant over programs; behaviour and counterexample for programs that do not update |
| C176 | The contacts of a dynamics solver | DynContacts_* | list of contacts with the number of the call that made each; induction over the program; composed with the theorems on the solve (C69, C71, C126) |
| C177 | The errors reported by kinematics tasks | KinErrors_* | the matrices kept in each task as a list beside the solver; induction over the program; meaning of the norm from the equations of the tasks (C64) |
| C178 | Planners follow their last configuration and the current parameters | Planners_* | the planners as objects beside the shared parameters; induction over the program; compared with the program that creates and configures a planner at the end |
| C179 | The trunk of a walk turns smoothly with the feet | WpgTrunk_* | induction over the supports on the points of the trunk spline, then the theorems about cubic splines |
| C180 | Following a walk with the tasks of the walk | WalkFollow_* | composition of the theorems about planned walks (C105, C152, C179) and about the tasks (C121); induction over the updates |
| C181 | What a dynamics solver leaves in its tasks and contacts | DynMemory_* | induction over the program, on the last call that wrote the members |
| C182 | A robot is read from the model the user names, with the collision pairs beside it | Loading_* | paths as lists of names; lemmas on the last slash of a string; then C150 on the rest of the constructor |
| C183 | A name the robot does not have is reported | ByName_* | one inductive type of calls, and case analysis over it |
| C184 | Reaching the initial pose ends within the limits | Reach_* | invariant of the loop (settings of the solver, sizes, limits) on top of C62, C64, C111 and C118; the counterexample by the optimality of each solve (C115) |
| C185 | The flag scaled of a walk decides the priority of its tasks | WalkPriority_model.v, WalkPriority_spec.v, WalkPriority_proofs.v, WalkPriority_props.v | the calls to configure are added to the model of the tasks of a walk (WalkTasks_model.v), which the new one refines; invariant over all histories on what each task in the solver was configured with |
| C186 | Rotors and gears in the mass matrix | Rotor_spec.v, Rotor_proofs.v, Rotor_props.v | on the model of the robot (Robot_model.v); induction on the history, and a robot without its rotors on which the other calls are shown to act alike; the contract of crba (its upper triangle is that of the matrix of the bodies) is a hypothesis |
| C187 | The timings of a walk computed with doubles | Doubles_model.v, Doubles_spec.v, Doubles_proofs.v, Doubles_props.v | the loop of plan_com over the supports with the operations rounded to nearest even in binary64 (Flocq, without overflow); induction on the supports, relative errors of Flocq; the search of a part compares doubles, which is exact, so the theorem of C54 applies |
| C188 | A replanned support never has more than its whole duration elapsed | DoublesReplan_model.v, DoublesReplan_spec.v, DoublesReplan_proofs.v, DoublesReplan_proofs2.v, DoublesReplan_props.v, DoublesReplan_props2.v | the formulas of the elapsed ratio and of the remaining duration with operations rounded to nearest even (Flocq); induction on the replans with a bound on the errors; witness computed by the rounding of each operation |
| C189 | Sampling an integrator with doubles | DoublesSample_model.v, DoublesSample_spec.v, DoublesSample_proofs.v, DoublesSample_props.v | the choice of the step and of the remaining time with operations rounded to nearest even (Flocq); bounds on the rounding errors by cases on the clamping; witness computed by the rounding of each operation. The product with the transition matrices is not rounded here: it is that of the model with real numbers |
| C190 | Clipping a step with doubles | DoublesClip_model.v, DoublesClip_spec.v, DoublesClip_proofs.v, DoublesClip_props.v | the three functions with operations rounded to nearest even (Flocq); the square root of the rounded square of a double is not less than the double; relative errors composed along the computation and compared with the model with real numbers of C45; witnesses computed by the rounding of each operation |
| C191 | The trajectory of the swing foot with doubles | DoublesSwing_model.v, DoublesSwing_spec.v, DoublesSwing_proofs.v, DoublesSwing_props.v | the times of the knots with operations rounded to nearest even (Flocq), given to the model of the splines; bounds on the absolute errors of the times. The polynomials between the knots are those of the model with real numbers |
| C192 | Planning the feet with doubles | DoublesFeet_model.v, DoublesFeet_spec.v, DoublesFeet_proofs.v, DoublesFeet_props.v | the planning of the feet over the times of C190 and the swings of C191, with operations on times rounded to nearest even (Flocq); induction on the parts. Orientations, and what is read in the previous trajectory, are those of the model with real numbers |
| C193 | Joint and velocity limits with doubles | DoublesLimits_model.v, DoublesLimits_spec.v, DoublesLimits_proofs.v, DoublesLimits_props.v | the rows of one joint and its displacement with operations rounded to nearest even (Flocq); the limit is itself a double, so that rounding the sum at most doubles the error of the row; induction on the history. The back-end is any displacement that satisfies the rows up to a tolerance, evaluated exactly |
| C194 | The displacement of a naive step with doubles | DoublesReach_model.v, DoublesReach_spec.v, DoublesReach_proofs.v, DoublesReach_props.v | the tests and the factor with operations rounded to nearest even (Flocq); rounding is monotone, so the least of the rounded factors is the rounded least factor. The yaw and the frames are those of the model with real numbers (C53) |
| C195 | Repeated integrations with doubles | DoublesIntegrate_model.v, DoublesIntegrate_spec.v, DoublesIntegrate_proofs.v, DoublesIntegrate_props.v | the sums and products rounded to nearest even (Flocq); induction on the number of calls with the error bound as invariant; two doubles that differ by less than 2^-54 of one of them are equal |
| C196 | Velocity limits of DynamicsSolver with doubles | DoublesDyn_model.v, DoublesDyn_spec.v, DoublesDyn_proofs.v, DoublesDyn_props.v | the rows and the integration rounded to nearest even (Flocq); the rounded change of speed satisfies the limits of C193 with twice the tolerance, whose invariant then bounds the speed |
| C197 | Joint limits over a history of dynamics solves | Dyn_model.v, DynHistory_spec.v, DynHistory_proofs.v, DynHistory_props.v | the whole solve of Dyn_model.v, with the limits (C68) and the integration (C72) of each solve; invariant over the history: over the limit the speed is under 2 qdd_safe dt and the next position is under the bound too |
| C198 | A joint held by a hard task converges when dt sqrt(kp) is small enough | Dyn_model.v, DynTasks_model.v, DynTrack_spec.v, DynTrack_proofs.v, DynTrack_props.v, DynDamp_spec.v, DynDamp_proofs.v, DynDamp_props.v | each solve imposes the acceleration of the task (C73) and is integrated (C72), which gives a linear recurrence on the error and the speed; its two eigenvalues are real, and each left eigenvector is multiplied by its eigenvalue at each solve; with another damping, a quadratic function of the last two errors decreases by a constant factor every two solves |

## Trusted base

* The kernel of Coq 8.16.1, on the whole dependency closure of the theorems. No kernel check is switched off, no
  axiom is added, there is no `Admitted`, no functor and no plugin.
* The reading of the C++ text: nothing but the citations links the model to `/repo`. The code was not built or run.
* The axioms of the standard library listed below, theorem by theorem. Libraries used besides the standard library:
  Coquelicot (derivatives) and, in the proofs about manipulability only, mathcomp (determinants). Neither adds an axiom.

### What Print Assumptions lists for each theorem

Letters: **F** is `ClassicalDedekindReals.sig_forall_dec`, **N** is `ClassicalDedekindReals.sig_not_dec`, **E** is
`FunctionalExtensionality.functional_extensionality_dep`, **C** is `Classical_Prop.classic`, **D** is
`ClassicalEpsilon.constructive_indefinite_description` (used to exhibit an oracle that meets its contract). Every
`*_props*.v` file also runs `Print Assumptions` on its theorems.

* **none (closed under the global context)** (73): `C01_add_interval_history`, `C01_add_interval_union`, `C02_sum_is_union`, `C02_sum_algebra`, `C41_invalid`, `C42_unchanged_partial`, `C42_behaviour`, `C62_mask_dof`, `C62_unmask_dof`, `C65_set_joint`, `C65_add_gear`, `C65_set_gear`, `C66_kinematics`, `C66_kinematics_destroyed`, `C66_dynamics_partial`, `C66_dynamics_remove_behaviour`, `C66_dynamics_remove_refuted`, `C66_dynamics_contact_refuted`, `C66_contact_without_task_behaviour`, `C73_set_gains`, `C75_history`, `C75_only_one_entry`, `C75_unknown_partial`, `C75_unknown_refuted`, `C79_round_trip`, `C79_names`, `C79_problem_constraints`, `C88_int_coefficients_partial`, `C88_int_coefficients_refuted`, `C103_sizes_refuted`, `C107_joint_names`, `C107_set_velocity_limits`, `C112_by_name`, `C126_unknown`, `C127_set_torque`, `C127_reset_torque`, `C128_set_gear_behaviour`, `C128_set_gear_partial`, `C147_types`, `C148_kept_refuted`, `C148_all_pairs`, `C149_collisions`, `C149_stop`, `C149_distances`, `C168_references`, `C168_destroyed`, `C168_copy_behaviour`, `C168_copy_refuted`, `C169_null_behaviour`, `C170_durable_partial`, `C170_internal`, `C170_temporary_argument_behaviour`, `C170_refuted`, `C170_frame_task_refuted`, `C170_api_behaviour`, `C171_attributes_partial`, `C171_read_only`, `C171_segment_end_behaviour`, `C171_line_contact_behaviour`, `C171_line_contact_refuted`, `C173_set_joints`, `C173_kinematics`, `C174_kinematics`, `C174_dynamics_behaviour`, `C174_dynamics_partial`, `C174_set_joint_behaviour`, `C174_state_kept`, `C174_copy_kept`, `C174_frames_behaviour`, `C175_answers`, `C175_libraries`, `C175_mixture_behaviour`, `C175_hessians_behaviour`.
* **F** (50): `C05_variable_expr_unchecked`, `C11_slice`, `C25_constructor`, `C25_constructor_order`, `C29_start_behaviour`, `C30_negative_order`, `C31_negative_order`, `C41_rows`, `C42_unchanged_refuted`, `C51_make_supports`, `C51_short`, `C68_set_qdd_safe`, `C77_behaviour`, `C77_refuted`, `C77_trunk_and_com_partial`, `C77_after_mode_change_behaviour`, `C78_defined`, `C78_one_of_two`, `C78_follows_the_mode`, `C78_removed`, `C78_cleared_behaviour`, `C84_configure`, `C95_axes`, `C102_plain`, `C102_truncated`, `C102_refuted`, `C113_integrate`, `C121_targets`, `C128_set_gear_refuted`, `C141_other_robots_refuted`, `C141_support_behaviour`, `C163_safe`, `C163_independent`, `C169_solver_behaviour`, `C169_next_call_behaviour`, `C169_solver_refuted`, `C172_humanoid`, `C173_set_joint`, `C173_dynamics_behaviour`, `C173_velocities`, `C173_dynamics_partial`, `C175_robot_model`, `C176_contacts`, `C176_index`, `C176_index_behaviour`, `C176_index_refuted`, `C185_partial`, `C185_lasting_behaviour`, `C185_made_behaviour`, `C185_refuted`.
* **C** (3): `C148_loads`, `C148_pairs`, `C148_failure_behaviour`.
* **C, F** (1): `C133_weights`.
* **E, F** (147): `C03_detect_columns`, `C04_variables_tile`, `C04_variables_disjoint`, `C04_variables_cover`, `C05_variable_expr_slice`, `C05_variable_expr_defaults`, `C06_sum_of_expressions`, `C06_difference_of_expressions`, `C06_scaling`, `C06_matrix_product`, `C06_vector_terms`, `C06_scalar_terms`, `C07_sum_broadcast_left`, `C07_sum_broadcast_right`, `C07_sum_defined_iff_compatible`, `C08_vector_minus_expression_behaviour`, `C08_vector_minus_expression_refuted`, `C08_vector_minus_expression_partial`, `C09_expression_minus_scalar_refuted`, `C09_expression_minus_scalar_partial`, `C10_product`, `C11_stack`, `C11_sum_and_piecewise_add`, `C12_mean_behaviour`, `C12_mean_refuted`, `C12_mean_partial`, `C13_compare_expressions`, `C13_compare_vectors`, `C13_compare_scalars`, `C13_compare_mismatch`, `C14_add_limit`, `C14_add_limit_mismatch`, `C15_cost`, `C15_cost_with_slacks`, `C16_sparsity_refuted`, `C16_sparsity_partial`, `C16_rewritten_partial`, `C17_inequalities`, `C18_soft_inequalities`, `C18_no_penalty_when_satisfied`, `C19_elimination`, `C20_optimum`, `C20_feasible`, `C21_failed_solve`, `C21_only_qp_errors`, `C21_successful_solve`, `C22_equalities_checked`, `C22_equalities_rewritten`, `C22_no_nan`, `C23_active_sets`, `C24_ill_formed_behaviour`, `C24_ill_formed_refuted`, `C24_ill_formed_partial`, `C25_expressions_simulate`, `C26_requests_behaviour`, `C26_safe_requests_partial`, `C27_inputs`, `C27_expr_t_agrees`, `C28_duration_behaviour`, `C28_duration_partial`, `C29_last_solve_partial`, `C30_chain`, `C31_expression_is_polynom`, `C31_solution`, `C33_few_points`, `C33_fit`, `C47_polygon`, `C47_contains`, `C49_partial`, `C54_terminates`, `C54_right_part`, `C54_inside`, `C56_prev_support_behaviour`, `C56_getters_refuted`, `C56_prev_support_partial`, `C57_foot_velocity_behaviour`, `C57_foot_velocity_refuted`, `C57_foot_velocity_partial`, `C58_vertical_velocity`, `C58_zero_landing_velocity_refuted`, `C65_joints_exact`, `C65_gears_behaviour`, `C68_default_safe`, `C69_zmp`, `C70_point_partial`, `C70_planar_behaviour`, `C70_planar_refuted`, `C71_line_behaviour`, `C71_zmp_behaviour`, `C71_zmp_refuted`, `C73_all_axes`, `C76_static_gravity`, `C81_duplicate_equality_behaviour`, `C81_redundant_equalities_refuted`, `C81_dependent_equalities_behaviour`, `C81_success_means_independent`, `C81_independent_equalities_partial`, `C82_options_behaviour`, `C82_options_refuted`, `C82_options_partial`, `C83_feasible_problems_are_solved`, `C87_expr_t_behaviour`, `C87_expr_t_checks_partial`, `C96_refused`, `C97_durations`, `C97_has_double_support`, `C100_offset`, `C104_target_dcm_behaviour`, `C108_relative_position_jacobian`, `C108_get_T_a_b`, `C109_behaviour`, `C109_equation_partial`, `C110_mass_matrix`, `C110_kinetic_energy`, `C111_add_q_noise`, `C111_undefined_limits`, `C114_answer_is_unique`, `C118_apply`, `C122_integral_bounded`, `C122_zero_gains`, `C122_offset`, `C122_uninitialised_behaviour`, `C122_determined_refuted`, `C140_torques`, `C140_power`, `C141_com_velocity_partial`, `C143_dcm_zmp`, `C143_capture`, `C157_no_step_behaviour`, `C166_comparison`, `C166_ignored`, `C166_times_ignored`, `C166_transitive_refuted`, `C167_kick_behaviour`, `C167_kick_refuted`, `C167_kick_partial`, `C172_static`, `C172_fixed_frame`, `C172_at_rest`, `C173_dynamics_refuted`, `C174_dynamics_refuted`, `C175_careless_refuted`, `C182_text_mjcf`, `C182_no_file`, `C186_matrix`, `C186_energy`, `C186_history`.
* **E, F, N** (139): `C25_chain_of_integrators`, `C26_safe_requests_refuted`, `C27_keyframes`, `C28_duration_refuted`, `C29_failed_solve_refuted`, `C30_derivatives`, `C32_margin_is_a_distance`, `C32_in_polygon_exact`, `C32_in_polygon`, `C32_in_polygon_xy`, `C32_two_rows`, `C39_lambdas`, `C39_intersects`, `C39_line_pass_through`, `C39_lines_intersection`, `C39_refused`, `C39_degenerate`, `C40_behaviour`, `C40_half_line_refuted`, `C45_clip`, `C45_idempotent`, `C45_zero_limit`, `C46_opposite_frame`, `C46_neutral_frame`, `C48_refuted`, `C48_behaviour`, `C48_partial`, `C49_refuted`, `C50_clipped_opposite_footstep`, `C50_no_collision`, `C52_repetitive_plan`, `C54_empty`, `C60_construct`, `C60_expressions`, `C60_omega`, `C67_sizes`, `C67_behaviour`, `C67_equation_partial`, `C68_other_dofs_behaviour`, `C68_limits`, `C68_velocity_vs_torque`, `C68_braking`, `C68_one_step`, `C68_set_torque_limit`, `C69_valid`, `C69_friction`, `C71_line_refuted`, `C71_bilateral_partial`, `C72_failure`, `C72_zero_period`, `C72_integrated`, `C73_relative_position_behaviour`, `C73_relative_position_partial`, `C73_relative_orientation_behaviour`, `C73_relative_orientation_partial`, `C73_gains_used`, `C73_satisfied`, `C73_position`, `C73_com`, `C73_orientation`, `C73_joints`, `C73_gear_partial`, `C74_stale_behaviour`, `C74_place_by_frame`, `C74_base`, `C74_universe_refuted`, `C80_directions_2d`, `C86_taylor`, `C87_expr_t_checks_refuted`, `C89_points_of_the_segment`, `C89_accepted_points`, `C90_parallel`, `C93_condition`, `C96_optimal`, `C96_exact`, `C100_transform`, `C101_repetitive`, `C104_world`, `C104_dcm_zmp`, `C109_equation_refuted`, `C112_joint_time_variation_refuted`, `C124_optimal`, `C125_no_joints_behaviour`, `C126_world`, `C126_local`, `C126_applied`, `C127_torques`, `C129_succeeds`, `C129_infeasible`, `C137_brakes`, `C137_behaviour`, `C137_pushes_partial`, `C137_soft`, `C138_on_floor`, `C138_new`, `C138_missing`, `C139_imu`, `C139_same_orientation`, `C142_measured`, `C156_supports_of_footsteps`, `C157_supports`, `C157_repetitive`, `C158_one_best`, `C158_close_to_ideal`, `C162_mirrored_zone_partial`, `C166_equal`, `C166_different`, `C171_segment_end_refuted`, `C172_dynamics`, `C176_promised`, `C176_unset`, `C180_on_track`, `C181_errors_behaviour`, `C181_dump`, `C181_solve`, `C181_position`, `C181_com`, `C181_orientation`, `C181_joints`, `C181_gears`, `C181_torques`, `C181_wrench_behaviour`, `C181_stale_refuted`, `C182_beside_refuted`, `C183_frames`, `C183_positions`, `C183_unchecked_behaviour`, `C183_frame_names`, `C183_between`, `C183_same_as_index`, `C183_refuted`, `C197_contained`, `C197_any_period`, `C197_back`, `C198_damped`, `C198_damped_diverges`, `C198_undamped`, `C198_converges`, `C198_diverges`.
* **C, E, F** (5): `C150_new`, `C150_fails`, `C182_model`, `C182_beside_partial`, `C182_beside_behaviour`.
* **C, E, F, N** (242): `C27_continuous`, `C33_spline`, `C33_queries`, `C34_rejected`, `C34_rejected_unchanged`, `C34_accepted`, `C34_increasing`, `C35_angular`, `C35_consecutive`, `C36_duration_refuted`, `C36_duration_partial`, `C36_behaviour`, `C37_wrap_angle`, `C37_unique`, `C38_safe_acos`, `C43_flatten`, `C43_idempotent`, `C43_planar`, `C43_equivariant`, `C43_vertical`, `C44_ends`, `C44_translation`, `C53_naive_plan`, `C55_plan`, `C55_replan`, `C55_no_support`, `C58_make_partial`, `C58_remake`, `C58_remakes`, `C58_remake_height_refuted`, `C59_success`, `C59_over`, `C59_trajectory`, `C60_trajectory`, `C60_pendulum`, `C60_agreement_partial`, `C60_junction`, `C60_dzmp_behaviour`, `C60_dzmp_refuted`, `C61_queries`, `C61_mean`, `C62_built_in_tasks_are_sound`, `C62_masks`, `C62_joint_limits_partial`, `C62_velocity_limits`, `C62_continuous_joint_stuck_refuted`, `C63_hard_tasks`, `C63_scaled_tasks`, `C63_stale_scale_behaviour`, `C64_failure`, `C64_no_apply`, `C64_applied`, `C65_hard_joints`, `C65_hard_gears_partial`, `C73_critical`, `C80_directions_3d_partial`, `C80_directions_3d_refuted`, `C85_differential_equation`, `C86_derivatives`, `C91_derivatives_refuted`, `C91_derivatives_partial`, `C92_components`, `C92_add_point`, `C92_queries`, `C92_duration`, `C93_rotation_refuted`, `C93_rotation_partial`, `C93_rotation_almost`, `C94_constant_rate_partial`, `C94_rate_partial`, `C94_near_behaviour`, `C94_refuted`, `C95_rotation_from_axis`, `C98_overlap_clip`, `C99_refuted`, `C99_partial`, `C99_exact`, `C101_naive`, `C103_without_checks_partial`, `C104_yaw`, `C104_support`, `C105_plan`, `C105_replan`, `C106_zmp`, `C115_optimum`, `C116_same_request`, `C117_incompatible_requests`, `C118_ends`, `C118_compatible_requests`, `C119_redundant_requests_behaviour`, `C119_base_masked_twice_behaviour`, `C119_masked_and_asked_behaviour`, `C119_redundant_requests_refuted`, `C120_base_only_behaviour`, `C120_base_only_refuted`, `C123_initial_pose`, `C123_asked`, `C130_imposed`, `C130_soft`, `C130_position`, `C131_orientation`, `C131_reached`, `C131_relative_orientation`, `C131_axis_align_partial`, `C131_axis_aligned_behaviour`, `C131_axis_align_refuted`, `C132_hard`, `C132_soft`, `C132_hard_free`, `C132_half_spaces`, `C133_regularization`, `C133_kinetic`, `C133_momentum`, `C133_momentum_soft`, `C134_no_slip`, `C134_rolling`, `C134_soft`, `C135_behaviour`, `C135_level_partial`, `C135_soft`, `C136_behaviour`, `C136_partial`, `C136_kept_partial`, `C138_history`, `C138_switch`, `C138_same_support`, `C138_stale_behaviour`, `C142_camera_behaviour`, `C142_camera_partial`, `C142_camera_refuted`, `C144_next_step`, `C144_reset`, `C144_new`, `C144_rise_ratio`, `C144_history`, `C144_total`, `C145_height`, `C145_update`, `C145_trunk`, `C145_handover`, `C146_feet`, `C146_robot_partial`, `C146_stale_behaviour`, `C146_robot_refuted`, `C151_planned_exactly_when_possible`, `C151_possible_without_stop`, `C152_feet`, `C153_feet`, `C154_replanned_exactly_when_possible`, `C154_readable`, `C155_goes_on`, `C155_clocked`, `C155_over_behaviour`, `C157_same_landing`, `C157_again`, `C157_naive`, `C157_double_t_start_behaviour`, `C158_optimal_zmp`, `C159_double_support_refused`, `C159_step_adapted`, `C159_best_step_partial`, `C160_kept_polygon_behaviour`, `C160_polygon_partial`, `C161_standing_foot_partial`, `C161_first_foot_behaviour`, `C163_followed`, `C164_complete`, `C164_replay`, `C165_velocity_partial`, `C165_single_refuted`, `C174_frames_refuted`, `C177_history_behaviour`, `C177_dump_partial`, `C177_solve_behaviour`, `C177_position`, `C177_com`, `C177_joints`, `C177_new_refuted`, `C177_stale_refuted`, `C178_repetitive`, `C178_naive_partial`, `C178_naive_behaviour`, `C178_naive_refuted`, `C178_unconfigured_refuted`, `C179_planned`, `C179_replanned`, `C179_parallel`, `C180_followed`, `C180_ticks`, `C180_switch`, `C180_correction`, `C184_limits_partial`, `C184_returns`, `C184_failure`, `C184_reported_behaviour`, `C187_tiling`, `C187_drift`, `C187_distinct`, `C187_timesteps`, `C187_lost_behaviour`, `C187_timesteps_differ_behaviour`, `C188_partial`, `C188_refuted`, `C188_behaviour`, `C188_accuracy`, `C189_state`, `C189_highest_partial`, `C189_highest_behaviour`, `C189_highest_refuted`, `C190_limits`, `C190_partial`, `C190_kept_behaviour`, `C190_outside_behaviour`, `C190_refuted`, `C191_partial`, `C191_over_behaviour`, `C191_replan_behaviour`, `C191_refuted`, `C192_planned_partial`, `C192_takes_time`, `C192_lands_partial`, `C192_late_behaviour`, `C192_refuted`, `C193_history_partial`, `C193_near_partial`, `C193_satisfiable`, `C193_speed_partial`, `C193_refuted`, `C193_masked_behaviour`, `C193_speed_behaviour`, `C194_accessible`, `C194_scaled_partial`, `C194_refuted`, `C195_position_partial`, `C195_speed_partial`, `C195_unset`, `C195_stuck_behaviour`, `C195_refuted`, `C195_accelerated_partial`, `C196_history_partial`, `C196_satisfiable`, `C196_refuted`.
* **C, D, E, F** (1): `C141_support_refuted`.
* **C, D, E, F, N** (26): `C62_continuous_joint_refuted`, `C65_self_gear_refuted`, `C67_damping_refuted`, `C73_relative_orientation_refuted`, `C73_self_gear_refuted`, `C73_relative_position_refuted`, `C83_external_contracts_can_be_met`, `C119_independent_requests_partial`, `C120_no_limits_partial`, `C125_no_joints_refuted`, `C135_refuted`, `C136_odd_refuted`, `C136_aligned_refuted`, `C137_pushes_refuted`, `C147_cost`, `C147_penalty`, `C147_step`, `C147_singular`, `C147_defined`, `C157_refuted`, `C160_polygon_refuted`, `C161_standing_foot_refuted`, `C162_mirrored_zone_refuted`, `C162_backward_behaviour`, `C181_inactive_refuted`, `C184_reported_refuted`.

## What is modelled

For each source file: the model files, the number of functions modelled in full, those modelled in part and those not
modelled (with their lines). Functions defined in headers are cited in the model files. The bindings
(`bindings/*.cpp`) are modelled where a Python user sees more than the C++ function: conversions of dictionaries
(`Dicts_model.v`), the update of a Python copy of a solver (`PySolver_model.v`), lifetimes of the objects returned to
Python (`PyLife_model.v`), attributes and read-only properties (`PyAttr_model.v`).

| source | model | in full | in part | not modelled |
|--------|-------|---------|---------|--------------|
| dynamics/avoid_self_collisions_constraint.cpp | Dyn_model, KinTasks_model | 1 |  |  |
| dynamics/com_task.cpp | DynTasks_model, KinTasks_model | 1 |  | constructor of CoMTask (6-9), type_name (34-37), error_unit (39-42) |
| dynamics/constraint.cpp |  | 0 |  |  |
| dynamics/contacts.cpp | DynContacts_model, Dyn_model | 17 | add_constraints (32-39), update (96-103), update (162-175) | constructor of Contact (19-21), destructor of Contact (23-25) |
| dynamics/dynamics_solver.cpp | DoublesDyn_model, DynContacts_model, DynMemory_model, Dyn_model, FrameTasks_model, Ownership_model | 42 |  | add_avoid_self_collisions_constraint (71-74), destructor of DynamicsSolver (187-190), enable_joint_limits (192-195), enable_velocity_limits (197-200), enable_velocity_vs_torque_limits (202-205), enable_torque_limits (207-210), dump_status (382-385), mask_fbase (560-563) |
| dynamics/frame_task.cpp | FrameTasks_model, WalkPriority_model | 4 |  | constructor of FrameTask (9-12) |
| dynamics/gear_task.cpp | DynTasks_model, KinTasks_model | 3 |  | constructor of GearTask (6-8), type_name (65-68), error_unit (70-73) |
| dynamics/joints_task.cpp | Dicts_model, DynTasks_model, KinTasks_model | 3 | type_name (54-57) | constructor of JointsTask (6-8), error_unit (59-62) |
| dynamics/orientation_task.cpp | DynTasks_model, KinTasks_model | 1 |  | constructor of OrientationTask (6-10), type_name (41-44), error_unit (46-49) |
| dynamics/position_task.cpp | DynTasks_model, KinTasks_model | 1 |  | constructor of PositionTask (6-10), type_name (39-42), error_unit (44-47) |
| dynamics/relative_frame_task.cpp | FrameTasks_model | 3 | constructor of RelativeFrameTask (9-12) | constructor of RelativeFrameTask (5-7) |
| dynamics/relative_orientation_task.cpp | DynTasks_model, KinTasks_model | 2 | constructor of RelativeOrientationTask (7-13) | error_unit (59-62) |
| dynamics/relative_position_task.cpp | DynTasks_model, KinTasks_model | 1 | constructor of RelativePositionTask (7-13), type_name (63-66) | error_unit (68-71) |
| dynamics/task.cpp | DynTasks_model | 1 |  |  |
| dynamics/torque_task.cpp | DynTasks_model | 3 |  | constructor of TorqueTask (6-9), type_name (45-48), error_unit (50-53) |
| humanoid/dummy_walk.cpp | Dummy_model | 8 |  |  |
| humanoid/foot_trajectory.cpp |  | 0 |  | destructor of FootTrajectory (5-7) |
| humanoid/footsteps_planner.cpp | Footsteps_model, Planners_model, SameSteps_model | 19 |  | constructor of Footstep (14-17), constructor of Support (101-103), constructor of FootstepsPlanner (229-231) |
| humanoid/footsteps_planner_naive.cpp | DoublesReach_model, Footsteps_model, Planners_model | 3 |  | name (26-29) |
| humanoid/footsteps_planner_repetitive.cpp | Footsteps_model, Planners_model | 3 |  | name (10-13) |
| humanoid/humanoid_parameters.cpp | DoublesClip_model, Doubles_model, Footsteps_model | 15 |  |  |
| humanoid/humanoid_robot.cpp | Footsteps_model, Humanoid_model, Replay_model | 20 |  | initialize (34-37) |
| humanoid/kick.cpp | SameSteps_model | 3 |  |  |
| humanoid/lipm.cpp | Lipm_model | 20 |  | constructor of LIPM (43-45) |
| humanoid/swing_foot.cpp | Swing_model | 6 |  |  |
| humanoid/swing_foot_cubic.cpp | DoublesSwing_model, Swing_model | 3 |  |  |
| humanoid/swing_foot_quintic.cpp | Swing_model | 6 |  |  |
| humanoid/walk_pattern_generator.cpp | Adapt_model, DoublesFeet_model, DoublesReplan_model, DoublesSwing_model, Doubles_model, Wpg_model | 52 |  | constructor of TrajectoryPart (12-15), constructor of Trajectory (17-20), print_parts_timings (671-677) |
| humanoid/walk_tasks.cpp | Reach_model, WalkFollow_model, WalkPriority_model, WalkTasks_model | 9 |  |  |
| kinematics/avoid_self_collisions_constraint.cpp | Dyn_model, KinTasks_model | 1 |  |  |
| kinematics/axis_align_task.cpp | KinTasks_model | 1 |  | constructor of AxisAlignTask (6-10), type_name (38-41), error_unit (43-46) |
| kinematics/centroidal_momentum_task.cpp | KinTasks_model | 1 |  | constructor of CentroidalMomentumTask (7-9), type_name (25-28), error_unit (30-33) |
| kinematics/com_polygon_constraint.cpp | KinTasks_model | 1 |  | constructor of CoMPolygonConstraint (7-10) |
| kinematics/com_task.cpp | KinTasks_model | 1 |  | constructor of CoMTask (6-8), type_name (16-19), error_unit (21-24) |
| kinematics/cone_constraint.cpp | KinTasks_model | 1 |  | constructor of ConeConstraint (7-11) |
| kinematics/constraint.cpp |  | 0 |  |  |
| kinematics/distance_constraint.cpp | KinTasks_model | 1 |  | constructor of DistanceConstraint (7-11) |
| kinematics/distance_task.cpp | KinErrors_model, KinTasks_model | 1 | constructor of DistanceTask (6-11) | type_name (29-32), error_unit (34-37) |
| kinematics/frame_task.cpp | FrameTasks_model, WalkPriority_model | 4 |  | constructor of FrameTask (9-12) |
| kinematics/gear_task.cpp | DynTasks_model, KinTasks_model | 4 | error_unit (60-63) | constructor of GearTask (6-8) |
| kinematics/joint_space_half_spaces_constraint.cpp | KinTasks_model | 1 |  | constructor of JointSpaceHalfSpacesConstraint (7-9) |
| kinematics/joints_task.cpp | DynTasks_model, KinTasks_model | 5 |  | constructor of JointsTask (6-8) |
| kinematics/kinematics_solver.cpp | DoublesLimits_model, FrameTasks_model, KinErrors_model, Kin_model, Manip_model, Ownership_model, PySolver_model | 49 |  | mask_fbase (270-273), enable_joint_limits (275-278), enable_velocity_limits (280-283), tasks_count (285-288), get_tasks (446-449) |
| kinematics/kinetic_energy_regularization_task.cpp | KinTasks_model | 1 |  | type_name (29-32), error_unit (34-37) |
| kinematics/manipulability_task.cpp | Manip_model | 2 | constructor of ManipulabilityTask (6-9) | type_name (64-67), error_unit (69-72) |
| kinematics/orientation_task.cpp | KinTasks_model | 1 |  | constructor of OrientationTask (7-10), type_name (26-29), error_unit (31-34) |
| kinematics/position_task.cpp | KinTasks_model | 1 |  | constructor of PositionTask (6-9), type_name (22-25), error_unit (27-30) |
| kinematics/regularization_task.cpp | KinTasks_model | 3 |  | type_name (49-52), error_unit (54-57) |
| kinematics/relative_frame_task.cpp | FrameTasks_model | 3 |  | constructor of RelativeFrameTask (6-9) |
| kinematics/relative_orientation_task.cpp | KinTasks_model | 1 |  | constructor of RelativeOrientationTask (6-10), type_name (30-33), error_unit (35-38) |
| kinematics/relative_position_task.cpp | KinTasks_model | 1 |  | constructor of RelativePositionTask (6-10), type_name (22-25), error_unit (27-30) |
| kinematics/task.cpp | KinErrors_model | 2 |  |  |
| kinematics/wheel_task.cpp | KinTasks_model | 1 |  | constructor of WheelTask (6-10), type_name (49-52), error_unit (54-57) |
| kinematics/yaw_constraint.cpp | KinTasks_model | 1 |  | constructor of YawConstraint (7-11) |
| model/robot_wrapper.cpp | ByName_model, Collision_model, DoublesDyn_model, DoublesIntegrate_model, DynTasks_model, KinTasks_model, Loading_model, Manip_model, Robot_model, Workspace_model | 61 | operator== (164-167), reset (169-172) | operator== (159-162), set_gravity (689-692) |
| problem/constraint.cpp | Expression_model | 2 |  | operator== (17-21) |
| problem/expression.cpp | DoublesDyn_model, DoublesLimits_model, Expression_model | 44 |  | constructor of Expression (9-11), constructor of Expression (28-32) |
| problem/integrator.cpp | DoublesSample_model, Integrator_model | 12 |  | constructor of Integrator (46-48), destructor of Integrator (86-88) |
| problem/polygon_constraint.cpp | Polynom_model | 2 |  |  |
| problem/problem.cpp | ProblemMemory_model, Problem_model | 9 |  | dump_status (393-417) |
| problem/problem_polynom.cpp | Polynom_model | 2 |  | constructor of ProblemPolynom (6-8) |
| problem/qp_error.cpp |  | 0 |  | constructor of QPError (5-7) |
| problem/sparsity.cpp | Sparsity_model | 4 |  | constructor of Interval (6-8), constructor of Interval (10-12), print_intervals (88-95) |
| problem/variable.cpp | Expression_model | 2 |  |  |
| tools/axises_mask.cpp | KinTasks_model, Tools_model | 4 |  |  |
| tools/cubic_spline.cpp | Spline_model | 13 |  | points (122-125) |
| tools/cubic_spline_3d.cpp | Spline_model | 6 |  |  |
| tools/directions.cpp | Tools_model | 2 |  |  |
| tools/polynom.cpp | Polynom_model | 2 |  | constructor of Polynom (5-7) |
| tools/prioritized.cpp | FrameTasks_model, Tools_model, WalkPriority_model | 5 |  | destructor of Prioritized (31-33) |
| tools/segment.cpp | Tools_model | 10 |  | constructor of Segment (6-8), constructor of Segment (10-12) |
| tools/utils.cpp | Geometry_model, Loading_model, Tools_model | 8 |  | pin_se3_to_eigen (90-97) |

Not modelled, throughout:

* Rounding, NaN, infinities, signed zeros and integer overflow, except the rounding of times, durations, steps and joint positions in the Doubles*_model files (C187 to C196, without overflow).
* What external libraries do inside: eiquadprog, Eigen decompositions (QR, SVD, matrix exponential, determinant of
  a general matrix), pinocchio (loading of URDF and SRDF, kinematic and dynamic algorithms), hpp-fcl, boost geometry and
  boost python, jsoncpp, rhoban_utils. They are oracles; the contracts assumed are hypotheses in the theorems.
* Text: the functions that print a status, the names of types and the units of errors, and the texts of messages.
* Threads: the code has none. Running time and memory consumption.
* Python packages and examples (`/repo/python`), the visualiser and the build files.
