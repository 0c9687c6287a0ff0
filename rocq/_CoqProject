-Q theories Verif
theories/Base.v
theories/Sparsity_model.v
theories/Sparsity_spec.v
theories/Sparsity_proofs.v
theories/Sparsity_props.v
theories/Linalg.v
theories/Expression_model.v
theories/Expression_spec.v
theories/Expression_proofs.v
theories/Expression_props.v
theories/Problem_model.v
theories/Problem_spec.v
theories/Problem_proofs.v
theories/Problem_proofs2.v
theories/Problem_proofs3.v
theories/Problem_props.v
theories/Mexp.v
theories/Integrator_model.v
theories/Integrator_spec.v
theories/Integrator_proofs.v
theories/Integrator_proofs2.v
theories/Integrator_proofs3.v
theories/Integrator_props.v
theories/Polynom_model.v
theories/Polynom_spec.v
theories/Polynom_proofs.v
theories/Polynom_props.v
theories/Angle.v
theories/Tools_model.v
theories/Tools_spec.v
theories/Tools_proofs.v
theories/Tools_props.v
theories/Spline_model.v
theories/Spline_spec.v
theories/Spline_proofs.v
theories/Spline_props.v
theories/Geom3.v
theories/Geometry_model.v
theories/Geometry_spec.v
theories/Geometry_proofs.v
theories/Geometry_proofs2.v
theories/Geometry_props.v
theories/Footsteps_model.v
theories/Footsteps_spec.v
theories/Footsteps_proofs.v
theories/Footsteps_proofs2.v
theories/Footsteps_proofs3.v
theories/Footsteps_props.v
theories/Footsteps_props2.v
theories/Footsteps_props3.v
theories/Swing_model.v
theories/Swing_spec.v
theories/Swing_proofs.v
theories/Swing_props.v
theories/Lipm_model.v
theories/Lipm_spec.v
theories/Lipm_proofs.v
theories/Lipm_props.v
theories/Wpg_model.v
theories/Adapt_model.v
theories/Wpg_spec.v
theories/Wpg_proofs.v
theories/Wpg_proofs2.v
theories/Wpg_proofs3.v
theories/Wpg_proofs4.v
theories/Wpg_proofs5.v
theories/Wpg_props.v
theories/Robot_model.v
theories/Robot_spec.v
theories/Robot_proofs.v
theories/Robot_props.v
theories/Unique_spec.v
theories/Unique_proofs.v
theories/Backends_proofs.v
theories/Unique_props.v
theories/KinTasks_model.v
theories/Kin_model.v
theories/Kin_spec.v
theories/Kin_proofs.v
theories/Kin_proofs2.v
theories/Kin_proofs3.v
theories/Kin_proofs4.v
theories/Kin_proofs5.v
theories/Kin_proofs6.v
theories/Kin_proofs7.v
theories/Kin_props.v
theories/Kin_props2.v
theories/Ownership_model.v
theories/Ownership_spec.v
theories/Ownership_proofs.v
theories/Ownership_props.v
theories/WalkTasks_model.v
theories/WalkTasks_spec.v
theories/WalkTasks_proofs.v
theories/WalkTasks_props.v
theories/DynTasks_model.v
theories/Dyn_model.v
theories/Dyn_spec.v
theories/Dyn_proofs.v
theories/Dyn_proofs2.v
theories/Dyn_proofs3.v
theories/Dyn_proofs4.v
theories/Dyn_proofs5.v
theories/Dyn_proofs6.v
theories/Dyn_proofs7.v
theories/Dyn_proofs8.v
theories/Dyn_example.v
theories/Dyn_props.v
theories/Tasks_spec.v
theories/Tasks_proofs.v
theories/DynTasks_spec.v
theories/DynTasks_proofs.v
theories/Dyn_example2.v
theories/DynTasks_props.v
theories/Dyn_props2.v
theories/KinTasks_spec.v
theories/KinTasks_proofs.v
theories/KinTasks_example.v
theories/KinTasks_props.v
theories/KinCons_spec.v
theories/KinCons_proofs.v
theories/KinCons_props.v
theories/KinReg_spec.v
theories/KinReg_proofs.v
theories/KinReg_props.v
theories/KinAngle_spec.v
theories/KinAngle_proofs.v
theories/KinAngle_props.v
theories/DynRel_spec.v
theories/DynRel_proofs.v
theories/DynRel_props.v
theories/DynCol_spec.v
theories/DynCol_proofs.v
theories/DynCol_props.v
theories/DynSet_props.v
theories/Humanoid_model.v
theories/Humanoid_spec.v
theories/Humanoid_proofs.v
theories/Humanoid_props.v
theories/Humanoid_proofs2.v
theories/Humanoid_proofs3.v
theories/Humanoid_props2.v
theories/Humanoid_props3.v
theories/Dummy_model.v
theories/Dummy_spec.v
theories/Dummy_proofs.v
theories/Dummy_props.v
theories/Dummy_props2.v
theories/Det.v
theories/Det_proofs.v
theories/Det_proofs2.v
theories/Manip_model.v
theories/Manip_spec.v
theories/Manip_proofs.v
theories/Manip_props.v
theories/Collision_model.v
theories/Collision_spec.v
theories/Collision_proofs.v
theories/Collision_props.v
theories/WpgPlan_spec.v
theories/WpgPlan_proofs.v
theories/WpgPlan_proofs2.v
theories/WpgPlan_proofs3.v
theories/WpgPlan_proofs4.v
theories/WpgPlan_props.v
theories/WpgFeet_spec.v
theories/WpgFeet_proofs.v
theories/WpgFeet_proofs2.v
theories/WpgFeet_proofs3.v
theories/WpgFeet_proofs4.v
theories/WpgFeet_props.v
theories/WpgReplan_spec.v
theories/WpgReplan_proofs.v
theories/WpgReplan_proofs2.v
theories/WpgReplan_props.v
theories/WpgSupports_props.v
theories/Rewritten_props.v
theories/Adapt_spec.v
theories/Adapt_proofs.v
theories/Adapt_proofs2.v
theories/Adapt_props.v
theories/Adapt_props2.v
theories/FrameTasks_model.v
theories/FrameTasks_spec.v
theories/FrameTasks_proofs.v
theories/FrameTasks_props.v
theories/Replay_model.v
theories/Replay_spec.v
theories/Replay_proofs.v
theories/Replay_props.v
theories/SameSteps_model.v
theories/SameSteps_props.v
theories/ProblemMemory_model.v
theories/ProblemMemory_spec.v
theories/ProblemMemory_proofs.v
theories/ProblemMemory_props.v
theories/PySolver_model.v
theories/PySolver_props.v
theories/PyLife_model.v
theories/PyLife_spec.v
theories/PyLife_proofs.v
theories/PyLife_props.v
theories/PyAttr_model.v
theories/PyAttr_spec.v
theories/PyAttr_proofs.v
theories/PyAttr_props.v
theories/Dicts_model.v
theories/Dicts_spec.v
theories/Dicts_proofs.v
theories/Dicts_props.v
theories/PyRobot_model.v
theories/PyRobot_spec.v
theories/PyRobot_props.v
theories/Workspace_model.v
theories/Workspace_spec.v
theories/Workspace_props.v
theories/DynContacts_model.v
theories/DynContacts_spec.v
theories/DynContacts_proofs.v
theories/DynContacts_props.v
theories/KinErrors_model.v
theories/KinErrors_spec.v
theories/KinErrors_proofs.v
theories/KinErrors_props.v
theories/Planners_model.v
theories/Planners_spec.v
theories/Planners_proofs.v
theories/Planners_props.v
theories/WpgTrunk_spec.v
theories/WpgTrunk_proofs.v
theories/WpgTrunk_props.v
theories/WalkFollow_model.v
theories/WalkFollow_spec.v
theories/WalkFollow_props.v
theories/DynMemory_model.v
theories/DynMemory_spec.v
theories/DynMemory_proofs.v
theories/DynMemory_props.v
theories/Loading_model.v
theories/Loading_spec.v
theories/Loading_proofs.v
theories/Loading_props.v
theories/ByName_model.v
theories/ByName_spec.v
theories/ByName_proofs.v
theories/ByName_props.v
theories/Reach_model.v
theories/Reach_spec.v
theories/Reach_proofs.v
theories/Reach_props.v
theories/PyLife_spec2.v
theories/PyLife_props2.v
theories/WalkPriority_model.v
theories/WalkPriority_spec.v
theories/WalkPriority_proofs.v
theories/WalkPriority_props.v
theories/Rotor_spec.v
theories/Rotor_proofs.v
theories/Rotor_props.v
theories/Doubles_model.v
theories/Doubles_spec.v
theories/Doubles_proofs.v
theories/Doubles_props.v
theories/DoublesReplan_model.v
theories/DoublesReplan_spec.v
theories/DoublesReplan_proofs.v
theories/DoublesReplan_props.v
theories/DoublesSample_model.v
theories/DoublesSample_spec.v
theories/DoublesSample_proofs.v
theories/DoublesSample_props.v
theories/DoublesClip_model.v
theories/DoublesClip_spec.v
theories/DoublesClip_proofs.v
theories/DoublesClip_props.v
theories/DoublesReplan_proofs2.v
theories/DoublesReplan_props2.v
theories/DoublesSwing_model.v
theories/DoublesSwing_spec.v
theories/DoublesSwing_proofs.v
theories/DoublesSwing_props.v
theories/Geometry_props2.v
theories/DoublesFeet_model.v
theories/DoublesFeet_spec.v
theories/DoublesFeet_proofs.v
theories/DoublesFeet_props.v
theories/DoublesLimits_model.v
theories/DoublesLimits_spec.v
theories/DoublesLimits_proofs.v
theories/DoublesLimits_props.v
theories/DoublesReach_model.v
theories/DoublesReach_spec.v
theories/DoublesReach_proofs.v
theories/DoublesReach_props.v
theories/DoublesIntegrate_model.v
theories/DoublesIntegrate_spec.v
theories/DoublesIntegrate_proofs.v
theories/DoublesIntegrate_proofs2.v
theories/DoublesIntegrate_props.v
theories/DoublesDyn_model.v
theories/DoublesDyn_spec.v
theories/DoublesDyn_proofs.v
theories/DoublesDyn_props.v
theories/DynHistory_spec.v
theories/DynHistory_proofs.v
theories/DynHistory_props.v
theories/DynTrack_spec.v
theories/DynTrack_proofs.v
theories/DynTrack_props.v
theories/DynDamp_spec.v
theories/DynDamp_proofs.v
theories/DynDamp_props.v
