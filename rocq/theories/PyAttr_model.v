(** The attributes of the Python classes: for every [add_property], [def_readwrite] and [def_readonly] of
    bindings/expose-*.cpp, the member that reading the attribute returns and the member that assigning it writes.

    An object is the contents of its members, by name; the values are opaque. Attributes computed by a function
    instead of reading a member are not in the table: [T_world_frame] and [T_a_b] of the frame tasks (claim C163),
    [Sparsity.intervals], [ProblemConstraint.priority] and [Prioritized.priority]. Whether a read returns a
    reference or a copy of the member is not modelled here (claims C169 and C170). *)

From Coq Require Import List String Bool.
Import ListNotations.
Local Open Scope string_scope.

(** One call of [add_property], [def_readwrite] or [def_readonly]: the class it is made on, the Python name, the
    class the accessors take, the member read, and the member written, if the attribute can be assigned. *)
Record attribute : Type := Attr {
  at_class : string;
  at_name : string;
  at_receiver : string;
  at_read : string;
  at_write : option string }.

(** bindings/expose-dynamics.cpp:26-29. *)
Definition attrs_DynamicsSolverResult : list attribute := [
  Attr "DynamicsSolverResult" "success" "DynamicsSolverResult" "success" None;
  Attr "DynamicsSolverResult" "tau" "DynamicsSolverResult" "tau" (Some "tau");
  Attr "DynamicsSolverResult" "qdd" "DynamicsSolverResult" "qdd" (Some "qdd");
  Attr "DynamicsSolverResult" "tau_contacts" "DynamicsSolverResult" "tau_contacts" (Some "tau_contacts")].

(** bindings/expose-dynamics.cpp:43-48. *)
Definition attrs_Contact : list attribute := [
  Attr "Contact" "active" "Contact" "active" (Some "active");
  Attr "Contact" "mu" "Contact" "mu" (Some "mu");
  Attr "Contact" "weight_forces" "Contact" "weight_forces" (Some "weight_forces");
  Attr "Contact" "weight_tangentials" "Contact" "weight_tangentials" (Some "weight_tangentials");
  Attr "Contact" "weight_moments" "Contact" "weight_moments" (Some "weight_moments");
  Attr "Contact" "wrench" "Contact" "wrench" None].

(** bindings/expose-dynamics.cpp:54-55. *)
Definition attrs_PointContact : list attribute := [
  Attr "PointContact" "unilateral" "PointContact" "unilateral" (Some "unilateral");
  Attr "PointContact" "R_world_surface" "PointContact" "R_world_surface" (Some "R_world_surface")].

(** bindings/expose-dynamics.cpp:64-66. *)
Definition attrs_Contact6D : list attribute := [
  Attr "Contact6D" "unilateral" "Contact6D" "unilateral" (Some "unilateral");
  Attr "Contact6D" "length" "Contact6D" "length" (Some "length");
  Attr "Contact6D" "width" "Contact6D" "width" (Some "width")].

(** bindings/expose-dynamics.cpp:76-80. *)
Definition attrs_LineContact : list attribute := [
  Attr "LineContact" "unilateral" "LineContact" "unilateral" (Some "unilateral");
  Attr "LineContact" "length" "LineContact" "length" (Some "length");
  Attr "LineContact" "R_world_surface" "PointContact" "R_world_surface" (Some "R_world_surface")].

(** bindings/expose-dynamics.cpp:84-85. *)
Definition attrs_ExternalWrenchContact : list attribute := [
  Attr "ExternalWrenchContact" "frame_index" "ExternalWrenchContact" "frame_index" None;
  Attr "ExternalWrenchContact" "w_ext" "ExternalWrenchContact" "w_ext" (Some "w_ext")].

(** bindings/expose-dynamics.cpp:92-132. *)
Definition attrs_DynamicsSolver : list attribute := [
  Attr "DynamicsSolver" "problem" "DynamicsSolver" "problem" None;
  Attr "DynamicsSolver" "damping" "DynamicsSolver" "damping" (Some "damping");
  Attr "DynamicsSolver" "dt" "DynamicsSolver" "dt" (Some "dt");
  Attr "DynamicsSolver" "gravity_only" "DynamicsSolver" "gravity_only" (Some "gravity_only");
  Attr "DynamicsSolver" "torque_cost" "DynamicsSolver" "torque_cost" (Some "torque_cost");
  Attr "DynamicsSolver" "extra_force" "DynamicsSolver" "extra_force" (Some "extra_force");
  Attr "DynamicsSolver" "robot" "DynamicsSolver" "robot" None].

(** bindings/expose-dynamics.cpp:162-167. *)
Definition attrs_DynamicsTask : list attribute := [
  Attr "DynamicsTask" "A" "DynamicsTask" "A" (Some "A");
  Attr "DynamicsTask" "b" "DynamicsTask" "b" (Some "b");
  Attr "DynamicsTask" "kp" "DynamicsTask" "kp" (Some "kp");
  Attr "DynamicsTask" "kd" "DynamicsTask" "kd" (Some "kd");
  Attr "DynamicsTask" "error" "DynamicsTask" "error" None;
  Attr "DynamicsTask" "derror" "DynamicsTask" "derror" None].

(** bindings/expose-dynamics.cpp:170-174. *)
Definition attrs_DynamicsPositionTask : list attribute := [
  Attr "DynamicsPositionTask" "frame_index" "DynamicsPositionTask" "frame_index" None;
  Attr "DynamicsPositionTask" "target_world" "DynamicsPositionTask" "target_world" (Some "target_world");
  Attr "DynamicsPositionTask" "dtarget_world" "DynamicsPositionTask" "dtarget_world" (Some "dtarget_world");
  Attr "DynamicsPositionTask" "ddtarget_world" "DynamicsPositionTask" "ddtarget_world" (Some "ddtarget_world");
  Attr "DynamicsPositionTask" "mask" "DynamicsPositionTask" "mask" (Some "mask")].

(** bindings/expose-dynamics.cpp:177-180. *)
Definition attrs_DynamicsCoMTask : list attribute := [
  Attr "DynamicsCoMTask" "target_world" "DynamicsCoMTask" "target_world" (Some "target_world");
  Attr "DynamicsCoMTask" "dtarget_world" "DynamicsCoMTask" "dtarget_world" (Some "dtarget_world");
  Attr "DynamicsCoMTask" "ddtarget_world" "DynamicsCoMTask" "ddtarget_world" (Some "ddtarget_world");
  Attr "DynamicsCoMTask" "mask" "DynamicsCoMTask" "mask" (Some "mask")].

(** bindings/expose-dynamics.cpp:184-187. *)
Definition attrs_DynamicsRelativePositionTask : list attribute := [
  Attr "DynamicsRelativePositionTask" "target" "DynamicsRelativePositionTask" "target" (Some "target");
  Attr "DynamicsRelativePositionTask" "dtarget" "DynamicsRelativePositionTask" "dtarget" (Some "dtarget");
  Attr "DynamicsRelativePositionTask" "ddtarget" "DynamicsRelativePositionTask" "ddtarget" (Some "ddtarget");
  Attr "DynamicsRelativePositionTask" "mask" "DynamicsRelativePositionTask" "mask" (Some "mask")].

(** bindings/expose-dynamics.cpp:191-194. *)
Definition attrs_DynamicsRelativeOrientationTask : list attribute := [
  Attr "DynamicsRelativeOrientationTask" "R_a_b" "DynamicsRelativeOrientationTask" "R_a_b" (Some "R_a_b");
  Attr "DynamicsRelativeOrientationTask" "omega_a_b" "DynamicsRelativeOrientationTask" "omega_a_b" (Some "omega_a_b");
  Attr "DynamicsRelativeOrientationTask" "domega_a_b" "DynamicsRelativeOrientationTask" "domega_a_b" (Some "domega_a_b");
  Attr "DynamicsRelativeOrientationTask" "mask" "DynamicsRelativeOrientationTask" "mask" (Some "mask")].

(** bindings/expose-dynamics.cpp:197-200. *)
Definition attrs_DynamicsOrientationTask : list attribute := [
  Attr "DynamicsOrientationTask" "R_world_frame" "DynamicsOrientationTask" "R_world_frame" (Some "R_world_frame");
  Attr "DynamicsOrientationTask" "omega_world" "DynamicsOrientationTask" "omega_world" (Some "omega_world");
  Attr "DynamicsOrientationTask" "domega_world" "DynamicsOrientationTask" "domega_world" (Some "domega_world");
  Attr "DynamicsOrientationTask" "mask" "DynamicsOrientationTask" "mask" (Some "mask")].

(** bindings/expose-dynamics.cpp:246-247. *)
Definition attrs_AvoidSelfCollisionsDynamicsConstraint : list attribute := [
  Attr "AvoidSelfCollisionsDynamicsConstraint" "self_collisions_margin" "AvoidSelfCollisionsDynamicsConstraint" "self_collisions_margin" (Some "self_collisions_margin");
  Attr "AvoidSelfCollisionsDynamicsConstraint" "self_collisions_trigger" "AvoidSelfCollisionsDynamicsConstraint" "self_collisions_trigger" (Some "self_collisions_trigger")].

(** bindings/expose-footsteps.cpp:24-28. *)
Definition attrs_Footstep : list attribute := [
  Attr "Footstep" "side" "Footstep" "side" (Some "side");
  Attr "Footstep" "foot_length" "Footstep" "foot_length" (Some "foot_length");
  Attr "Footstep" "foot_width" "Footstep" "foot_width" (Some "foot_width");
  Attr "Footstep" "frame" "Footstep" "frame" (Some "frame")].

(** bindings/expose-footsteps.cpp:52-59. *)
Definition attrs_Support : list attribute := [
  Attr "Support" "footsteps" "Support" "footsteps" (Some "footsteps");
  Attr "Support" "t_start" "Support" "t_start" (Some "t_start");
  Attr "Support" "elapsed_ratio" "Support" "elapsed_ratio" (Some "elapsed_ratio");
  Attr "Support" "time_ratio" "Support" "time_ratio" (Some "time_ratio");
  Attr "Support" "start" "Support" "start" (Some "start");
  Attr "Support" "end" "Support" "end" (Some "end");
  Attr "Support" "target_world_dcm" "Support" "target_world_dcm" (Some "target_world_dcm")].

(** bindings/expose-kinematics.cpp:23-27. *)
Definition attrs_KinematicsSolver : list attribute := [
  Attr "KinematicsSolver" "problem" "KinematicsSolver" "problem" None;
  Attr "KinematicsSolver" "dt" "KinematicsSolver" "dt" (Some "dt");
  Attr "KinematicsSolver" "N" "KinematicsSolver" "N" None;
  Attr "KinematicsSolver" "scale" "KinematicsSolver" "scale" None;
  Attr "KinematicsSolver" "robot" "KinematicsSolver" "robot" None].

(** bindings/expose-kinematics.cpp:135-136. *)
Definition attrs_Task : list attribute := [
  Attr "Task" "A" "Task" "A" None;
  Attr "Task" "b" "Task" "b" None].

(** bindings/expose-kinematics.cpp:142-145. *)
Definition attrs_PositionTask : list attribute := [
  Attr "PositionTask" "frame_index" "PositionTask" "frame_index" None;
  Attr "PositionTask" "target_world" "PositionTask" "target_world" (Some "target_world");
  Attr "PositionTask" "mask" "PositionTask" "mask" (Some "mask")].

(** bindings/expose-kinematics.cpp:149-152. *)
Definition attrs_RelativePositionTask : list attribute := [
  Attr "RelativePositionTask" "frame_a" "RelativePositionTask" "frame_a" None;
  Attr "RelativePositionTask" "frame_b" "RelativePositionTask" "frame_b" None;
  Attr "RelativePositionTask" "target" "RelativePositionTask" "target" (Some "target");
  Attr "RelativePositionTask" "mask" "RelativePositionTask" "mask" (Some "mask")].

(** bindings/expose-kinematics.cpp:156-157. *)
Definition attrs_CoMTask : list attribute := [
  Attr "CoMTask" "target_world" "CoMTask" "target_world" (Some "target_world");
  Attr "CoMTask" "mask" "CoMTask" "mask" (Some "mask")].

(** bindings/expose-kinematics.cpp:160-162. *)
Definition attrs_OrientationTask : list attribute := [
  Attr "OrientationTask" "frame_index" "OrientationTask" "frame_index" None;
  Attr "OrientationTask" "R_world_frame" "OrientationTask" "R_world_frame" (Some "R_world_frame");
  Attr "OrientationTask" "mask" "OrientationTask" "mask" (Some "mask")].

(** bindings/expose-kinematics.cpp:166-169. *)
Definition attrs_RelativeOrientationTask : list attribute := [
  Attr "RelativeOrientationTask" "frame_a" "RelativeOrientationTask" "frame_a" None;
  Attr "RelativeOrientationTask" "frame_b" "RelativeOrientationTask" "frame_b" None;
  Attr "RelativeOrientationTask" "R_a_b" "RelativeOrientationTask" "R_a_b" (Some "R_a_b");
  Attr "RelativeOrientationTask" "mask" "RelativeOrientationTask" "mask" (Some "mask")].

(** bindings/expose-kinematics.cpp:195-198. *)
Definition attrs_AxisAlignTask : list attribute := [
  Attr "AxisAlignTask" "frame_index" "AxisAlignTask" "frame_index" None;
  Attr "AxisAlignTask" "axis_frame" "AxisAlignTask" "axis_frame" (Some "axis_frame");
  Attr "AxisAlignTask" "targetAxis_world" "AxisAlignTask" "targetAxis_world" (Some "targetAxis_world")].

(** bindings/expose-kinematics.cpp:213-216. *)
Definition attrs_WheelTask : list attribute := [
  Attr "WheelTask" "joint" "WheelTask" "joint" None;
  Attr "WheelTask" "radius" "WheelTask" "radius" None;
  Attr "WheelTask" "omniwheel" "WheelTask" "omniwheel" None;
  Attr "WheelTask" "T_world_surface" "WheelTask" "T_world_surface" (Some "T_world_surface")].

(** bindings/expose-kinematics.cpp:220-222. *)
Definition attrs_DistanceTask : list attribute := [
  Attr "DistanceTask" "frame_a" "DistanceTask" "frame_a" None;
  Attr "DistanceTask" "frame_b" "DistanceTask" "frame_b" None;
  Attr "DistanceTask" "distance" "DistanceTask" "distance" (Some "distance")].

(** bindings/expose-kinematics.cpp:225-226. *)
Definition attrs_CentroidalMomentumTask : list attribute := [
  Attr "CentroidalMomentumTask" "mask" "CentroidalMomentumTask" "mask" None;
  Attr "CentroidalMomentumTask" "L_world" "CentroidalMomentumTask" "L_world" (Some "L_world")].

(** bindings/expose-kinematics.cpp:234-236. *)
Definition attrs_ManipulabilityTask : list attribute := [
  Attr "ManipulabilityTask" "lambda_" "ManipulabilityTask" "lambda" (Some "lambda");
  Attr "ManipulabilityTask" "minimize" "ManipulabilityTask" "minimize" (Some "minimize");
  Attr "ManipulabilityTask" "manipulability" "ManipulabilityTask" "manipulability" None].

(** bindings/expose-kinematics.cpp:243-244. *)
Definition attrs_AvoidSelfCollisionsKinematicsConstraint : list attribute := [
  Attr "AvoidSelfCollisionsKinematicsConstraint" "self_collisions_margin" "AvoidSelfCollisionsKinematicsConstraint" "self_collisions_margin" (Some "self_collisions_margin");
  Attr "AvoidSelfCollisionsKinematicsConstraint" "self_collisions_trigger" "AvoidSelfCollisionsKinematicsConstraint" "self_collisions_trigger" (Some "self_collisions_trigger")].

(** bindings/expose-kinematics.cpp:247-250. *)
Definition attrs_CoMPolygonConstraint : list attribute := [
  Attr "CoMPolygonConstraint" "polygon" "CoMPolygonConstraint" "polygon" (Some "polygon");
  Attr "CoMPolygonConstraint" "dcm" "CoMPolygonConstraint" "dcm" (Some "dcm");
  Attr "CoMPolygonConstraint" "omega" "CoMPolygonConstraint" "omega" (Some "omega");
  Attr "CoMPolygonConstraint" "margin" "CoMPolygonConstraint" "margin" (Some "margin")].

(** bindings/expose-kinematics.cpp:254-255. *)
Definition attrs_JointSpaceHalfSpacesConstraint : list attribute := [
  Attr "JointSpaceHalfSpacesConstraint" "A" "JointSpaceHalfSpacesConstraint" "A" (Some "A");
  Attr "JointSpaceHalfSpacesConstraint" "b" "JointSpaceHalfSpacesConstraint" "b" (Some "b")].

(** bindings/expose-kinematics.cpp:259-261. *)
Definition attrs_ConeConstraint : list attribute := [
  Attr "ConeConstraint" "angle_max" "ConeConstraint" "angle_max" (Some "angle_max");
  Attr "ConeConstraint" "N" "ConeConstraint" "N" (Some "N");
  Attr "ConeConstraint" "range" "ConeConstraint" "range" (Some "range")].

(** bindings/expose-kinematics.cpp:265-265. *)
Definition attrs_YawConstraint : list attribute := [
  Attr "YawConstraint" "angle_max" "YawConstraint" "angle_max" (Some "angle_max")].

(** bindings/expose-kinematics.cpp:269-269. *)
Definition attrs_DistanceConstraint : list attribute := [
  Attr "DistanceConstraint" "distance_max" "DistanceConstraint" "distance_max" (Some "distance_max")].

(** bindings/expose-parameters.cpp:21-52. *)
Definition attrs_HumanoidParameters : list attribute := [
  Attr "HumanoidParameters" "single_support_duration" "HumanoidParameters" "single_support_duration" (Some "single_support_duration");
  Attr "HumanoidParameters" "single_support_timesteps" "HumanoidParameters" "single_support_timesteps" (Some "single_support_timesteps");
  Attr "HumanoidParameters" "double_support_ratio" "HumanoidParameters" "double_support_ratio" (Some "double_support_ratio");
  Attr "HumanoidParameters" "startend_double_support_ratio" "HumanoidParameters" "startend_double_support_ratio" (Some "startend_double_support_ratio");
  Attr "HumanoidParameters" "planned_timesteps" "HumanoidParameters" "planned_timesteps" (Some "planned_timesteps");
  Attr "HumanoidParameters" "zmp_margin" "HumanoidParameters" "zmp_margin" (Some "zmp_margin");
  Attr "HumanoidParameters" "walk_foot_height" "HumanoidParameters" "walk_foot_height" (Some "walk_foot_height");
  Attr "HumanoidParameters" "walk_foot_rise_ratio" "HumanoidParameters" "walk_foot_rise_ratio" (Some "walk_foot_rise_ratio");
  Attr "HumanoidParameters" "walk_com_height" "HumanoidParameters" "walk_com_height" (Some "walk_com_height");
  Attr "HumanoidParameters" "walk_trunk_pitch" "HumanoidParameters" "walk_trunk_pitch" (Some "walk_trunk_pitch");
  Attr "HumanoidParameters" "feet_spacing" "HumanoidParameters" "feet_spacing" (Some "feet_spacing");
  Attr "HumanoidParameters" "foot_width" "HumanoidParameters" "foot_width" (Some "foot_width");
  Attr "HumanoidParameters" "foot_length" "HumanoidParameters" "foot_length" (Some "foot_length");
  Attr "HumanoidParameters" "foot_zmp_target_x" "HumanoidParameters" "foot_zmp_target_x" (Some "foot_zmp_target_x");
  Attr "HumanoidParameters" "foot_zmp_target_y" "HumanoidParameters" "foot_zmp_target_y" (Some "foot_zmp_target_y");
  Attr "HumanoidParameters" "zmp_reference_weight" "HumanoidParameters" "zmp_reference_weight" (Some "zmp_reference_weight");
  Attr "HumanoidParameters" "walk_max_dx_forward" "HumanoidParameters" "walk_max_dx_forward" (Some "walk_max_dx_forward");
  Attr "HumanoidParameters" "walk_max_dx_backward" "HumanoidParameters" "walk_max_dx_backward" (Some "walk_max_dx_backward");
  Attr "HumanoidParameters" "walk_max_dy" "HumanoidParameters" "walk_max_dy" (Some "walk_max_dy");
  Attr "HumanoidParameters" "walk_max_dtheta" "HumanoidParameters" "walk_max_dtheta" (Some "walk_max_dtheta");
  Attr "HumanoidParameters" "walk_dtheta_spacing" "HumanoidParameters" "walk_dtheta_spacing" (Some "walk_dtheta_spacing");
  Attr "HumanoidParameters" "op_space_polygon" "HumanoidParameters" "op_space_polygon" (Some "op_space_polygon");
  Attr "HumanoidParameters" "dcm_offset_polygon" "HumanoidParameters" "dcm_offset_polygon" (Some "dcm_offset_polygon")].

(** bindings/expose-problem.cpp:37-38. *)
Definition attrs_SparsityInterval : list attribute := [
  Attr "SparsityInterval" "start" "SparsityInterval" "start" (Some "start");
  Attr "SparsityInterval" "end" "SparsityInterval" "end" (Some "end")].

(** bindings/expose-problem.cpp:62-76. *)
Definition attrs_ProblemConstraint : list attribute := [
  Attr "ProblemConstraint" "expression" "ProblemConstraint" "expression" None;
  Attr "ProblemConstraint" "weight" "ProblemConstraint" "weight" None;
  Attr "ProblemConstraint" "is_active" "ProblemConstraint" "is_active" None].

(** bindings/expose-problem.cpp:90-94. *)
Definition attrs_Integrator : list attribute := [
  Attr "Integrator" "t_start" "Integrator" "t_start" (Some "t_start");
  Attr "Integrator" "M" "Integrator" "M" None;
  Attr "Integrator" "A" "Integrator" "A" None;
  Attr "Integrator" "B" "Integrator" "B" None;
  Attr "Integrator" "final_transition_matrix" "Integrator" "final_transition_matrix" None].

(** bindings/expose-problem.cpp:116-127. *)
Definition attrs_Problem : list attribute := [
  Attr "Problem" "x" "Problem" "x" None;
  Attr "Problem" "n_variables" "Problem" "n_variables" (Some "n_variables");
  Attr "Problem" "n_inequalities" "Problem" "n_inequalities" (Some "n_inequalities");
  Attr "Problem" "n_equalities" "Problem" "n_equalities" (Some "n_equalities");
  Attr "Problem" "free_variables" "Problem" "free_variables" (Some "free_variables");
  Attr "Problem" "determined_variables" "Problem" "determined_variables" (Some "determined_variables");
  Attr "Problem" "slack_variables" "Problem" "slack_variables" (Some "slack_variables");
  Attr "Problem" "use_sparsity" "Problem" "use_sparsity" (Some "use_sparsity");
  Attr "Problem" "rewrite_equalities" "Problem" "rewrite_equalities" (Some "rewrite_equalities");
  Attr "Problem" "regularization" "Problem" "regularization" (Some "regularization");
  Attr "Problem" "slacks" "Problem" "slacks" None].

(** bindings/expose-problem.cpp:130-132. *)
Definition attrs_Variable : list attribute := [
  Attr "Variable" "k_start" "Variable" "k_start" None;
  Attr "Variable" "k_end" "Variable" "k_end" None;
  Attr "Variable" "value" "Variable" "value" None].

(** bindings/expose-problem.cpp:136-137. *)
Definition attrs_Expression : list attribute := [
  Attr "Expression" "A" "Expression" "A" (Some "A");
  Attr "Expression" "b" "Expression" "b" (Some "b")].

(** bindings/expose-robot-wrapper.cpp:152-154. *)
Definition attrs_RobotWrapper_State : list attribute := [
  Attr "RobotWrapper_State" "q" "RobotWrapper_State" "q" (Some "q");
  Attr "RobotWrapper_State" "qd" "RobotWrapper_State" "qd" (Some "qd");
  Attr "RobotWrapper_State" "qdd" "RobotWrapper_State" "qdd" (Some "qdd")].

(** bindings/expose-robot-wrapper.cpp:157-162. *)
Definition attrs_Collision : list attribute := [
  Attr "Collision" "objA" "Collision" "objA" None;
  Attr "Collision" "objB" "Collision" "objB" None;
  Attr "Collision" "bodyA" "Collision" "bodyA" None;
  Attr "Collision" "bodyB" "Collision" "bodyB" None;
  Attr "Collision" "parentA" "Collision" "parentA" None;
  Attr "Collision" "parentB" "Collision" "parentB" None].

(** bindings/expose-robot-wrapper.cpp:167-173. *)
Definition attrs_Distance : list attribute := [
  Attr "Distance" "objA" "Distance" "objA" None;
  Attr "Distance" "objB" "Distance" "objB" None;
  Attr "Distance" "parentA" "Distance" "parentA" None;
  Attr "Distance" "parentB" "Distance" "parentB" None;
  Attr "Distance" "pointA" "Distance" "pointA" (Some "pointA");
  Attr "Distance" "pointB" "Distance" "pointB" (Some "pointB");
  Attr "Distance" "min_distance" "Distance" "min_distance" None].

(** bindings/expose-robot-wrapper.cpp:218-219. *)
Definition attrs_HumanoidRobot : list attribute := [
  Attr "HumanoidRobot" "support_is_both" "HumanoidRobot" "support_is_both" (Some "support_is_both");
  Attr "HumanoidRobot" "support_side" "HumanoidRobot" "support_side" None].

(** bindings/expose-robot-wrapper.cpp:27-30. *)
Definition attrs_RobotWrapper : list attribute := [
  Attr "RobotWrapper" "state" "RobotWrapper" "state" (Some "state");
  Attr "RobotWrapper" "model" "RobotWrapper" "model" None;
  Attr "RobotWrapper" "collision_model" "RobotWrapper" "collision_model" None;
  Attr "RobotWrapper" "visual_model" "RobotWrapper" "visual_model" None].

(** bindings/expose-tools.cpp:56-57. *)
Definition attrs_AxisesMask : list attribute := [
  Attr "AxisesMask" "R_local_world" "AxisesMask" "R_local_world" (Some "R_local_world");
  Attr "AxisesMask" "R_custom_world" "AxisesMask" "R_custom_world" (Some "R_custom_world")].

(** bindings/expose-tools.cpp:61-61. *)
Definition attrs_Prioritized : list attribute := [
  Attr "Prioritized" "name" "Prioritized" "name" None].

(** bindings/expose-tools.cpp:87-87. *)
Definition attrs_Polynom : list attribute := [
  Attr "Polynom" "coefficients" "Polynom" "coefficients" (Some "coefficients")].

(** bindings/expose-tools.cpp:90-91. *)
Definition attrs_Segment : list attribute := [
  Attr "Segment" "start" "Segment" "start" (Some "start");
  Attr "Segment" "end" "Segment" "end" (Some "start")].

(** bindings/expose-walk-pattern-generator.cpp:27-30. *)
Definition attrs_WPGTrajectoryPart : list attribute := [
  Attr "WPGTrajectoryPart" "t_start" "WPGTrajectoryPart" "t_start" (Some "t_start");
  Attr "WPGTrajectoryPart" "t_end" "WPGTrajectoryPart" "t_end" (Some "t_end");
  Attr "WPGTrajectoryPart" "support" "WPGTrajectoryPart" "support" (Some "support")].

(** bindings/expose-walk-pattern-generator.cpp:34-40. *)
Definition attrs_WPGTrajectory : list attribute := [
  Attr "WPGTrajectory" "t_start" "WPGTrajectory" "t_start" None;
  Attr "WPGTrajectory" "t_end" "WPGTrajectory" "t_end" None;
  Attr "WPGTrajectory" "com_target_z" "WPGTrajectory" "com_target_z" None;
  Attr "WPGTrajectory" "trunk_pitch" "WPGTrajectory" "trunk_pitch" None;
  Attr "WPGTrajectory" "trunk_roll" "WPGTrajectory" "trunk_roll" None;
  Attr "WPGTrajectory" "parts" "WPGTrajectory" "parts" None;
  Attr "WPGTrajectory" "replan_success" "WPGTrajectory" "replan_success" None].

(** bindings/expose-walk-pattern-generator.cpp:76-79. *)
Definition attrs_WalkPatternGenerator : list attribute := [
  Attr "WalkPatternGenerator" "soft" "WalkPatternGenerator" "soft" (Some "soft");
  Attr "WalkPatternGenerator" "zmp_in_support_weight" "WalkPatternGenerator" "zmp_in_support_weight" (Some "zmp_in_support_weight");
  Attr "WalkPatternGenerator" "stop_end_support_weight" "WalkPatternGenerator" "stop_end_support_weight" (Some "stop_end_support_weight")].

(** bindings/expose-walk-pattern-generator.cpp:136-150. *)
Definition attrs_WalkTasks : list attribute := [
  Attr "WalkTasks" "solver" "WalkTasks" "solver" None;
  Attr "WalkTasks" "scaled" "WalkTasks" "scaled" (Some "scaled");
  Attr "WalkTasks" "left_foot_task" "WalkTasks" "left_foot_task" None;
  Attr "WalkTasks" "right_foot_task" "WalkTasks" "right_foot_task" None;
  Attr "WalkTasks" "trunk_mode" "WalkTasks" "trunk_mode" (Some "trunk_mode");
  Attr "WalkTasks" "com_x" "WalkTasks" "com_x" (Some "com_x");
  Attr "WalkTasks" "com_y" "WalkTasks" "com_y" (Some "com_y");
  Attr "WalkTasks" "trunk_orientation_task" "WalkTasks" "trunk_orientation_task" None;
  Attr "WalkTasks" "com_task" "WalkTasks" "com_task" None;
  Attr "WalkTasks" "trunk_task" "WalkTasks" "trunk_task" None].

(** bindings/expose-walk-pattern-generator.cpp:176-183. *)
Definition attrs_LIPM : list attribute := [
  Attr "LIPM" "dt" "LIPM" "dt" (Some "dt");
  Attr "LIPM" "timesteps" "LIPM" "timesteps" (Some "timesteps");
  Attr "LIPM" "t_start" "LIPM" "t_start" (Some "t_start");
  Attr "LIPM" "t_end" "LIPM" "t_end" (Some "t_end");
  Attr "LIPM" "x_var" "LIPM" "x_var" (Some "x_var");
  Attr "LIPM" "y_var" "LIPM" "y_var" (Some "y_var");
  Attr "LIPM" "x" "LIPM" "x" (Some "x");
  Attr "LIPM" "y" "LIPM" "y" (Some "y")].

(** bindings/expose-walk-pattern-generator.cpp:190-206. *)
Definition attrs_DummyWalk : list attribute := [
  Attr "DummyWalk" "robot" "DummyWalk" "robot" None;
  Attr "DummyWalk" "parameters" "DummyWalk" "parameters" None;
  Attr "DummyWalk" "solver" "DummyWalk" "solver" None;
  Attr "DummyWalk" "support_left" "DummyWalk" "support_left" (Some "support_left");
  Attr "DummyWalk" "lift_spline" "DummyWalk" "lift_spline" (Some "lift_spline");
  Attr "DummyWalk" "dx" "DummyWalk" "dx" None;
  Attr "DummyWalk" "dy" "DummyWalk" "dy" None;
  Attr "DummyWalk" "dtheta" "DummyWalk" "dtheta" None;
  Attr "DummyWalk" "T_world_left" "DummyWalk" "T_world_left" (Some "T_world_left");
  Attr "DummyWalk" "T_world_right" "DummyWalk" "T_world_right" (Some "T_world_right");
  Attr "DummyWalk" "T_world_next" "DummyWalk" "T_world_next" (Some "T_world_next")].

(** The attributes of all the classes. *)
Definition table : list attribute :=
  attrs_DynamicsSolverResult ++
  attrs_Contact ++
  attrs_PointContact ++
  attrs_Contact6D ++
  attrs_LineContact ++
  attrs_ExternalWrenchContact ++
  attrs_DynamicsSolver ++
  attrs_DynamicsTask ++
  attrs_DynamicsPositionTask ++
  attrs_DynamicsCoMTask ++
  attrs_DynamicsRelativePositionTask ++
  attrs_DynamicsRelativeOrientationTask ++
  attrs_DynamicsOrientationTask ++
  attrs_AvoidSelfCollisionsDynamicsConstraint ++
  attrs_Footstep ++
  attrs_Support ++
  attrs_KinematicsSolver ++
  attrs_Task ++
  attrs_PositionTask ++
  attrs_RelativePositionTask ++
  attrs_CoMTask ++
  attrs_OrientationTask ++
  attrs_RelativeOrientationTask ++
  attrs_AxisAlignTask ++
  attrs_WheelTask ++
  attrs_DistanceTask ++
  attrs_CentroidalMomentumTask ++
  attrs_ManipulabilityTask ++
  attrs_AvoidSelfCollisionsKinematicsConstraint ++
  attrs_CoMPolygonConstraint ++
  attrs_JointSpaceHalfSpacesConstraint ++
  attrs_ConeConstraint ++
  attrs_YawConstraint ++
  attrs_DistanceConstraint ++
  attrs_HumanoidParameters ++
  attrs_SparsityInterval ++
  attrs_ProblemConstraint ++
  attrs_Integrator ++
  attrs_Problem ++
  attrs_Variable ++
  attrs_Expression ++
  attrs_RobotWrapper_State ++
  attrs_Collision ++
  attrs_Distance ++
  attrs_HumanoidRobot ++
  attrs_RobotWrapper ++
  attrs_AxisesMask ++
  attrs_Prioritized ++
  attrs_Polynom ++
  attrs_Segment ++
  attrs_WPGTrajectoryPart ++
  attrs_WPGTrajectory ++
  attrs_WalkPatternGenerator ++
  attrs_WalkTasks ++
  attrs_LIPM ++
  attrs_DummyWalk.

(** The [bases<...>] arguments of the classes: bindings/expose-dynamics.cpp, expose-kinematics.cpp,
    expose-footsteps.cpp and expose-robot-wrapper.cpp. *)
Definition bases : list (string * string) := [
  ("PointContact", "Contact");
  ("Contact6D", "Contact");
  ("LineContact", "Contact");
  ("ExternalWrenchContact", "Contact");
  ("PuppetContact", "Contact");
  ("TaskContact", "Contact");
  ("DynamicsTask", "Prioritized");
  ("DynamicsPositionTask", "DynamicsTask");
  ("DynamicsCoMTask", "DynamicsTask");
  ("DynamicsRelativePositionTask", "DynamicsTask");
  ("DynamicsRelativeOrientationTask", "DynamicsTask");
  ("DynamicsOrientationTask", "DynamicsTask");
  ("DynamicsJointsTask", "DynamicsTask");
  ("DynamicsTorqueTask", "DynamicsTask");
  ("DynamicsGearTask", "DynamicsTask");
  ("DynamicsConstraint", "Prioritized");
  ("AvoidSelfCollisionsDynamicsConstraint", "DynamicsConstraint");
  ("FootstepsPlannerNaive", "FootstepsPlanner");
  ("FootstepsPlannerRepetitive", "FootstepsPlanner");
  ("Task", "Prioritized");
  ("PositionTask", "Task");
  ("RelativePositionTask", "Task");
  ("CoMTask", "Task");
  ("OrientationTask", "Task");
  ("RelativeOrientationTask", "Task");
  ("AxisAlignTask", "Task");
  ("JointsTask", "Task");
  ("GearTask", "Task");
  ("WheelTask", "Task");
  ("DistanceTask", "Task");
  ("CentroidalMomentumTask", "Task");
  ("RegularizationTask", "Task");
  ("ManipulabilityTask", "Task");
  ("KineticEnergyRegularizationTask", "RegularizationTask");
  ("KinematicsConstraint", "Prioritized");
  ("AvoidSelfCollisionsKinematicsConstraint", "KinematicsConstraint");
  ("CoMPolygonConstraint", "KinematicsConstraint");
  ("JointSpaceHalfSpacesConstraint", "KinematicsConstraint");
  ("ConeConstraint", "KinematicsConstraint");
  ("YawConstraint", "KinematicsConstraint");
  ("DistanceConstraint", "KinematicsConstraint");
  ("HumanoidRobot", "RobotWrapper")].

(** The classes made available to Python by bindings/expose-*.cpp. *)
Definition classes : list string := [
   "DynamicsSolverResult"; "Contact"; "PointContact"; "Contact6D"; "LineContact";
   "ExternalWrenchContact"; "PuppetContact"; "TaskContact"; "DynamicsSolver"; "DynamicsTask";
   "DynamicsPositionTask"; "DynamicsCoMTask"; "DynamicsRelativePositionTask";
   "DynamicsRelativeOrientationTask"; "DynamicsOrientationTask"; "DynamicsFrameTask";
   "DynamicsRelativeFrameTask"; "DynamicsJointsTask"; "DynamicsTorqueTask"; "DynamicsGearTask";
   "DynamicsConstraint"; "AvoidSelfCollisionsDynamicsConstraint"; "Footstep"; "Support";
   "FootstepsPlanner"; "FootstepsPlannerNaive"; "FootstepsPlannerRepetitive"; "KinematicsSolver";
   "Task"; "PositionTask"; "RelativePositionTask"; "CoMTask"; "OrientationTask";
   "RelativeOrientationTask"; "FrameTask"; "RelativeFrameTask"; "AxisAlignTask"; "JointsTask";
   "GearTask"; "WheelTask"; "DistanceTask"; "CentroidalMomentumTask"; "RegularizationTask";
   "ManipulabilityTask"; "KineticEnergyRegularizationTask"; "KinematicsConstraint";
   "AvoidSelfCollisionsKinematicsConstraint"; "CoMPolygonConstraint"; "JointSpaceHalfSpacesConstraint";
   "ConeConstraint"; "YawConstraint"; "DistanceConstraint"; "HumanoidParameters"; "QPError";
   "SparsityInterval"; "Sparsity"; "ProblemConstraint"; "PolygonConstraint"; "Integrator";
   "ProblemPolynom"; "IntegratorTrajectory"; "Problem"; "Variable"; "Expression"; "RobotWrapper_State";
   "Collision"; "Distance"; "RobotWrapper"; "HumanoidRobot"; "AxisesMask"; "Prioritized";
   "CubicSpline"; "CubicSpline3D"; "Polynom"; "Segment"; "HistoryCollection"; "WPGTrajectoryPart";
   "WPGTrajectory"; "WalkPatternGenerator"; "SwingFoot"; "SwingFootCubicTrajectory"; "SwingFootCubic";
   "SwingFootTrajectory"; "SwingFootQuintic"; "SwingFootQuinticTrajectory"; "WalkTasks";
   "LIPMTrajectory"; "LIPM"; "DummyWalk"].

(** The classes whose attributes an object of class [c] has, the most derived first. The fuel is the depth of the
    hierarchy. *)
Fixpoint ancestry (fuel : nat) (c : string) : list string :=
  match fuel with
  | 0 => [c]
  | S n => c :: match find (fun p => String.eqb (fst p) c) bases with
                | Some p => ancestry n (snd p)
                | None => []
                end
  end.

Definition lineage (c : string) : list string := ancestry 4 c.

(** Python's search of an attribute along the bases. *)
Definition resolve (c a : string) : option attribute :=
  find (fun e => String.eqb (at_name e) a)
       (flat_map (fun d => filter (fun e => String.eqb (at_class e) d) table) (lineage c)).

(** What an access does: returns, or raises AttributeError (there is no such attribute, or it cannot be assigned) or
    ArgumentError (the object does not have the type the accessor takes). *)
Inductive access (A : Type) : Type :=
| Done (x : A)
| AttributeError
| ArgumentError.
Arguments Done {A} x.
Arguments AttributeError {A}.
Arguments ArgumentError {A}.

Definition accepted (c : string) (e : attribute) : bool :=
  existsb (String.eqb (at_receiver e)) (lineage c).

(** [x.a] where [x] has class [c] and members [x]. *)
Definition py_get {V : Type} (c a : string) (x : string -> V) : access V :=
  match resolve c a with
  | None => AttributeError
  | Some e => if accepted c e then Done (x (at_read e)) else ArgumentError
  end.

(** [x.a = v]: the members after it. *)
Definition py_set {V : Type} (c a : string) (x : string -> V) (v : V) : access (string -> V) :=
  match resolve c a with
  | None => AttributeError
  | Some e =>
      match at_write e with
      | None => AttributeError
      | Some m => if accepted c e then Done (fun k => if String.eqb k m then v else x k) else ArgumentError
      end
  end.
