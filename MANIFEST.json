{
 "claims": [
  {
   "property": "C01",
   "status": "proved",
   "theorems": [
    "C01_counters",
    "C01_counters_refuted"
   ],
   "note": "All histories with proper names and without removal of a priority-0 force task; the refutation shows the code miscounts in that case."
  },
  {
   "property": "C02",
   "status": "proved",
   "theorems": [
    "C02_all_columns"
   ],
   "note": "Every history, no condition."
  },
  {
   "property": "C03",
   "status": "proved",
   "theorems": [
    "C03_slots_tile"
   ],
   "note": "Every history; order_step (FormInv) states how each call changes the contact order."
  },
  {
   "property": "C04",
   "status": "proved",
   "theorems": [
    "C04_add_remove_task",
    "C04_hard_force_refuted"
   ],
   "note": "Motion, actuation and soft force tasks; false for priority-0 force tasks."
  },
  {
   "property": "C05",
   "status": "proved",
   "theorems": [
    "C05_add_remove_contact"
   ],
   "note": "Immediate removal; shapes of the problem, contents are recomputed (C10)."
  },
  {
   "property": "C06",
   "status": "proved",
   "theorems": [
    "C06_removal_frame",
    "C06_removal_result",
    "C06_internal_name_refuted"
   ],
   "note": ""
  },
  {
   "property": "C07",
   "status": "proved",
   "theorems": [
    "C07_task_weight"
   ],
   "note": "Every history, no condition."
  },
  {
   "property": "C08",
   "status": "proved",
   "theorems": [
    "C08_contact_weights",
    "C08_result_refuted"
   ],
   "note": "Exact effect and exact result; the result false does not mean unchanged."
  },
  {
   "property": "C09",
   "status": "proved",
   "theorems": [
    "C09_level_stored",
    "C09_contact_level",
    "C09_levels_refuted"
   ],
   "note": "Levels 0 and 1 are stored, every higher level is out of bounds."
  },
  {
   "property": "C10",
   "status": "proved",
   "theorems": [
    "C10_computed_data",
    "C10_history_independent",
    "C19_reassociated_refuted"
   ],
   "note": "Associations of force tasks fixed; the refutation shows stale columns otherwise."
  },
  {
   "property": "C11",
   "status": "proved",
   "theorems": [
    "C11_feasible_physical"
   ],
   "note": "Over the reals."
  },
  {
   "property": "C12",
   "status": "proved",
   "theorems": [
    "C12_decoded_dynamics"
   ],
   "note": "Over the reals."
  },
  {
   "property": "C13",
   "status": "proved",
   "theorems": [
    "C13_actuation_constraint"
   ],
   "note": "Over the reals."
  },
  {
   "property": "C14",
   "status": "proved",
   "theorems": [
    "C14_getters_decode",
    "C14_second_solution_refuted"
   ],
   "note": ""
  },
  {
   "property": "C15",
   "status": "proved",
   "theorems": [
    "C14_getters_decode",
    "C03_slots_tile",
    "C15_new_contact_refuted"
   ],
   "note": "Case GForceOf of C14_getters_decode."
  },
  {
   "property": "C16",
   "status": "proved",
   "theorems": [
    "C16_transition_bound",
    "C16_no_throw",
    "C16_schedule",
    "C16_throw_refuted"
   ],
   "note": "Over the reals."
  },
  {
   "property": "C17",
   "status": "proved",
   "theorems": [
    "C17_transition_completes",
    "C17_transitions_all_complete",
    "C17_both_refuted",
    "C17_added_again_refuted",
    "C17_removed_twice_refuted"
   ],
   "note": ""
  },
  {
   "property": "C18",
   "status": "proved",
   "theorems": [
    "C18_external_torque",
    "C18_order_irrelevant",
    "C18_add_remove"
   ],
   "note": "Over the reals."
  },
  {
   "property": "C19",
   "status": "proved",
   "theorems": [
    "C19_force_task_own_contact",
    "C19_reassociated_refuted"
   ],
   "note": ""
  },
  {
   "property": "C20",
   "status": "proved",
   "theorems": [
    "C20_rejected_unchanged"
   ],
   "note": ""
  },
  {
   "property": "C54",
   "status": "proved",
   "theorems": [
    "C54_never_undefined"
   ],
   "note": ""
  },
  {
   "property": "C21",
   "status": "proved",
   "theorems": [
    "C21_one_sided_encoding"
   ],
   "note": "Over the reals; every history of the solver object."
  },
  {
   "property": "C22",
   "status": "proved",
   "theorems": [
    "C22_cost",
    "C22_minimisers"
   ],
   "note": "Over the reals."
  },
  {
   "property": "C23",
   "status": "proved",
   "theorems": [
    "C23_convex",
    "C23_unique",
    "C23_exists",
    "C23_unregularised_refuted"
   ],
   "note": "Over the reals."
  },
  {
   "property": "C24",
   "status": "proved",
   "theorems": [
    "C24_feasible_set",
    "C24_qpmad_bounds",
    "C24_qpmad_bounds_refuted"
   ],
   "note": "Over the reals."
  },
  {
   "property": "C25",
   "status": "proved",
   "theorems": [
    "C25_too_many_levels",
    "C25_inequality_in_cost",
    "C25_accepted",
    "C25_qpmad_refuted"
   ],
   "note": ""
  },
  {
   "property": "C26",
   "status": "proved",
   "theorems": [
    "C26_independent",
    "C26_one_level_refuted"
   ],
   "note": "Any scalar."
  },
  {
   "property": "C27",
   "status": "proved",
   "theorems": [
    "C27_status",
    "C27_same_status",
    "C27_stale_refuted"
   ],
   "note": ""
  },
  {
   "property": "C28",
   "status": "proved",
   "theorems": [
    "C28_check",
    "C28_exact_solution",
    "C28_monotone",
    "C28_all_tolerances",
    "C28_equality_zero_refuted"
   ],
   "note": "Over the reals with the real square root."
  },
  {
   "property": "C55",
   "status": "proved",
   "theorems": [
    "C55_problem_shape",
    "C55_accepted",
    "C55_rejected",
    "C55_optimum_physical",
    "C55_optimum_exists"
   ],
   "note": "The exactness of the external solver is a hypothesis (exact_answer), shown satisfiable by C55_optimum_exists."
  },
  {
   "property": "C29",
   "status": "proved",
   "theorems": [
    "C29_pyramid",
    "C29_normal_force",
    "C29_normal_force_size",
    "C29_two_frame",
    "C29_large_force_refuted",
    "C29_two_frame_normal_force_refuted"
   ],
   "note": "Over the reals with the real square root; every setter history."
  },
  {
   "property": "C30",
   "status": "proved",
   "theorems": [
    "C30_frame",
    "C30_short_normal_refuted"
   ],
   "note": ""
  },
  {
   "property": "C31",
   "status": "proved",
   "theorems": [
    "C31_limits",
    "C31_reflects",
    "C31_rejected",
    "C31_accepted",
    "C31_stored",
    "C31_initial",
    "C31_reference_size",
    "C31_defined",
    "C31_two_frame_refuted"
   ],
   "note": "Any scalar; the refutation over the reals."
  },
  {
   "property": "C32",
   "status": "proved",
   "theorems": [
    "C32_generator",
    "C32_virtual_power",
    "C32_regularisation_new",
    "C32_regularisation_after",
    "C32_regularisation_refuted"
   ],
   "note": ""
  },
  {
   "property": "C33",
   "status": "proved",
   "theorems": [
    "C33_support_polygon"
   ],
   "note": ""
  },
  {
   "property": "C34",
   "status": "proved",
   "theorems": [
    "C34_meaning",
    "C34_defined",
    "C34_setters",
    "C34_initial"
   ],
   "note": "Over the reals."
  },
  {
   "property": "C35",
   "status": "proved",
   "theorems": [
    "C35_interval",
    "C35_refuted"
   ],
   "note": ""
  },
  {
   "property": "C36",
   "status": "proved",
   "theorems": [
    "C36_ordered",
    "C36_conflict",
    "C36_one_side"
   ],
   "note": "C36_ordered for any scalar with irreflexive <, the others over the reals."
  },
  {
   "property": "C37",
   "status": "proved",
   "theorems": [
    "C37_position",
    "C37_exact",
    "C37_setters",
    "C37_initial"
   ],
   "note": "Over the reals; every history without setTimeStep and partial masks."
  },
  {
   "property": "C38",
   "status": "proved",
   "theorems": [
    "C38_closed_loop",
    "C38_viability_alone_refuted",
    "C38_narrow_refuted"
   ],
   "note": ""
  },
  {
   "property": "C39",
   "status": "proved",
   "theorems": [
    "C39_joint_bounds",
    "C39_posvelacc_refuted",
    "C39_posvelacc_double"
   ],
   "note": ""
  },
  {
   "property": "C56",
   "status": "proved",
   "theorems": [
    "C56_sizes",
    "C56_refuted"
   ],
   "note": ""
  },
  {
   "property": "C57",
   "status": "proved",
   "theorems": [
    "C57_disabled_refuted",
    "C37_exact"
   ],
   "note": "The velocity/acceleration part is C37_exact (imposed_any)."
  },
  {
   "property": "C40",
   "status": "proved",
   "theorems": [
    "C40_posture",
    "C40_actuation_bounds",
    "C40_actuation_bounds_always",
    "C40_actuation_equality",
    "C40_actuation_equality_setters"
   ],
   "note": "Histories with 0/1 masks (other masks: C58)."
  },
  {
   "property": "C41",
   "status": "proved",
   "theorems": [
    "C41_meaning",
    "C41_reported",
    "C41_setters"
   ],
   "note": "pinocchio::difference is an arbitrary function of the entries of its arguments."
  },
  {
   "property": "C58",
   "status": "proved",
   "theorems": [
    "C58_posture_refuted",
    "C58_actuation_bounds_refuted"
   ],
   "note": ""
  },
  {
   "property": "C59",
   "status": "proved",
   "theorems": [
    "C59_getters_position_refuted"
   ],
   "note": ""
  },
  {
   "property": "C42",
   "status": "proved",
   "theorems": [
    "C42_se3",
    "C42_two_frames",
    "C42_com",
    "C42_am",
    "C42_com_refuted",
    "C42_am_refuted"
   ],
   "note": "Holds for SE3 and two frames, refuted for CoM and angular momentum with the exact difference."
  },
  {
   "property": "C60",
   "status": "proved",
   "theorems": [
    "C60_se3_local",
    "C60_se3_world",
    "C60_two_frames",
    "C60_com",
    "C60_am",
    "C60_se3_setters",
    "C60_se3_references",
    "C60_tf_setters",
    "C60_com_setters",
    "C60_am_setters",
    "C60_initial"
   ],
   "note": "Placements, velocities, Jacobians, drifts and log3 are arbitrary inputs."
  },
  {
   "property": "C61",
   "status": "proved",
   "theorems": [
    "C61_frame",
    "C61_gains_refuted"
   ],
   "note": ""
  },
  {
   "property": "C62",
   "status": "proved",
   "theorems": [
    "C62_se3",
    "C62_com",
    "C62_aligned",
    "C62_velocity_refuted",
    "C62_positions",
    "C62_am"
   ],
   "note": ""
  },
  {
   "property": "C63",
   "status": "proved",
   "theorems": [
    "C63_se3_safe",
    "C63_tf_safe",
    "C63_com_safe",
    "C63_am_safe",
    "C63_se3_defined",
    "C63_tf_defined",
    "C63_com_defined",
    "C63_mask_refuted",
    "C63_exceptions",
    "C63_se3_exceptions"
   ],
   "note": ""
  },
  {
   "property": "C43",
   "status": "proved",
   "theorems": [
    "C43_meaning",
    "C43_cop",
    "C43_setters",
    "C43_initial"
   ],
   "note": "Contacts tile the force vector with three components per point, as the formulation lays them out."
  },
  {
   "property": "C44",
   "status": "proved",
   "theorems": [
    "C44_meaning",
    "C44_inside",
    "C44_limits_x",
    "C44_limits_y",
    "C44_rejects",
    "C44_initial"
   ],
   "note": ""
  },
  {
   "property": "C45",
   "status": "proved",
   "theorems": [
    "C45_bounded",
    "C45_constant_error",
    "C45_no_leak_grows",
    "C45_second_call",
    "C45_repeatable_refuted"
   ],
   "note": "Boundedness proved, repeatability refuted with the exact difference."
  },
  {
   "property": "C64",
   "status": "proved",
   "theorems": [
    "C64_kept_normal",
    "C64_tilted_refuted",
    "C64_off_plane"
   ],
   "note": ""
  },
  {
   "property": "C65",
   "status": "proved",
   "theorems": [
    "C65_margin_unchecked",
    "C65_infeasible",
    "C65_acceleration_undefined"
   ],
   "note": ""
  },
  {
   "property": "C66",
   "status": "proved",
   "theorems": [
    "C66_meaning",
    "C66_defined",
    "C66_fresh_undefined",
    "C66_shape",
    "C66_missing_contact",
    "C66_present_contact",
    "C66_setters",
    "C66_initial"
   ],
   "note": ""
  },
  {
   "property": "C46",
   "status": "proved",
   "theorems": [
    "C46_place_vector_place",
    "C46_vector_place_vector",
    "C46_layout",
    "C46_sizes"
   ],
   "note": ""
  },
  {
   "property": "C47",
   "status": "proved",
   "theorems": [
    "C47_roundtrip",
    "C47_entries",
    "C47_closed",
    "C47_order_refuted"
   ],
   "note": "Round trip proved for equal storage order, refuted for different ones. Both readings of Eigen resize."
  },
  {
   "property": "C48",
   "status": "proved",
   "theorems": [
    "C48_moore_penrose",
    "C48_damped_solve",
    "C48_damped_inverse",
    "C48_no_tolerance",
    "C48_no_options",
    "C48_damped_nan"
   ],
   "note": "The SVD is an oracle: JacobiSVD is supposed to return a singular value decomposition."
  },
  {
   "property": "C49",
   "status": "proved",
   "theorems": [
    "C49_counts",
    "C49_average",
    "C49_max",
    "C49_min",
    "C49_min_after_zero",
    "C49_min_refuted",
    "C49_max_refuted",
    "C49_reset_unknown"
   ],
   "note": "Min and max refuted in general, proved under the exact conditions."
  },
  {
   "property": "C50",
   "status": "proved",
   "theorems": [
    "C50_measures",
    "C50_after_reset",
    "C50_after_mode",
    "C50_off",
    "C50_unknown",
    "C50_independent",
    "C50_pause_adds",
    "C50_stop_again",
    "C50_pause_refuted",
    "C50_pause_real_refuted",
    "C50_double_stop_refuted",
    "C50_none"
   ],
   "note": "Start/stop proved, pause and second stop refuted."
  },
  {
   "property": "C51",
   "status": "proved",
   "theorems": [
    "C51_euclidian",
    "C51_se3",
    "C51_default",
    "C51_own_refuted",
    "C51_own_part_refuted",
    "C51_se3_default_refuted"
   ],
   "note": ""
  },
  {
   "property": "C52",
   "status": "proved",
   "theorems": [
    "C52_mass",
    "C52_positive",
    "C52_joints",
    "C52_too_small",
    "C52_rotor_rejected",
    "C52_gear_rejected",
    "C52_symmetric",
    "C52_negative_refuted"
   ],
   "note": ""
  },
  {
   "property": "C53",
   "status": "proved",
   "theorems": [
    "C53_inverted",
    "C53_refuted"
   ],
   "note": "The stated property is refuted; the function answers the opposite."
  },
  {
   "property": "C67",
   "status": "proved",
   "theorems": [
    "C67_finite"
   ],
   "note": ""
  },
  {
   "property": "C68",
   "status": "proved",
   "theorems": [
    "C68_truncated",
    "C68_empty"
   ],
   "note": ""
  },
  {
   "property": "C69",
   "status": "proved",
   "theorems": [
    "C69_velocity",
    "C69_refuted"
   ],
   "note": "Assumes (general knowledge of pinocchio, not checked here) that SE3() leaves the translation uninitialised; pinocchio data are inputs."
  },
  {
   "property": "C70",
   "status": "proved",
   "theorems": [
    "C70_classic"
   ],
   "note": ""
  },
  {
   "property": "C71",
   "status": "proved",
   "theorems": [
    "C71_kernel",
    "C71_with_inverse",
    "C71_thin",
    "C71_no_tolerance"
   ],
   "note": ""
  },
  {
   "property": "C72",
   "status": "proved",
   "theorems": [
    "C72_spatial",
    "C72_unknown"
   ],
   "note": "Same assumptions as C69."
  },
  {
   "property": "C73",
   "status": "proved",
   "theorems": [
    "C73_no_false_alarm",
    "C73_exact",
    "C73_masked",
    "C73_stop_speed",
    "C73_refuted"
   ],
   "note": "Over the reals. False near the lower braking limit (C73_masked, C73_refuted), exact elsewhere."
  },
  {
   "property": "C74",
   "status": "proved",
   "theorems": [
    "C74_point",
    "C74_six",
    "C74_two_frames",
    "C74_two_frames_size_refuted"
   ],
   "note": "Rejection of wrong sizes refuted for the two-frame contact. log3 is an arbitrary function of the nine entries."
  },
  {
   "property": "C75",
   "status": "proved",
   "theorems": [
    "C75_power",
    "C75_axes"
   ],
   "note": "The columns filled by pinocchio::getFrameJacobian are those of the joints that move the frame."
  },
  {
   "property": "C76",
   "status": "proved",
   "theorems": [
    "C76_columns",
    "C76_counters",
    "C76_defined",
    "C76_task",
    "C76_contact",
    "C76_measured",
    "C76_refuted"
   ],
   "note": "Refuted for renaming of present tasks and contacts; the exact effect is proved."
  },
  {
   "property": "C77",
   "status": "proved",
   "theorems": [
    "C77_getters",
    "C77_in_use",
    "C77_library",
    "C77_answers",
    "C77_debug_refuted",
    "C77_zero_refuted"
   ],
   "note": "Refuted for setMaximumIterations(0) and for the verbosity in debug builds. Library defaults and which numbers eiquadprog accepts are arbitrary; eiquadprog-fast reset is supposed to keep the number of iterations."
  },
  {
   "property": "C78",
   "status": "proved",
   "theorems": [
    "C78_same_size_undefined",
    "C78_other_size",
    "C78_settings",
    "C78_refuted"
   ],
   "note": "The stated property is refuted; the exact behaviour of the copy is proved."
  },
  {
   "property": "C79",
   "status": "proved",
   "theorems": [
    "C79_joints",
    "C79_frames",
    "C79_selected",
    "C79_forces",
    "C79_posvelacc_refuted",
    "C79_rejected_refuted"
   ],
   "note": "Refuted for TaskJointPosVelAccBounds with masked joints and after a mask refused by an exception. Joint tasks: masks passed are zeros and ones; contact force task: the force generator has six rows."
  },
  {
   "property": "C80",
   "status": "proved",
   "theorems": [
    "C80_limits",
    "C80_feasible",
    "C80_exact_refuted",
    "C80_nan"
   ],
   "note": "Doubles: Flocq binary64, rounding to nearest, no fused multiply-add. Exact respect of the velocity limits is refuted."
  },
  {
   "property": "C81",
   "status": "proved",
   "theorems": [
    "C81_position",
    "C81_velocity",
    "C81_ordered",
    "C81_constructed"
   ],
   "note": "Doubles as in C80; any square root function. The rounding theorems suppose a proper interval (lower < upper), position limits imposed and setTimeStep not used; the viability limits are not analysed in doubles."
  },
  {
   "property": "C82",
   "status": "proved",
   "theorems": [
    "C82_count",
    "C82_rows"
   ],
   "note": "Doubles as in C80."
  },
  {
   "property": "C83",
   "status": "proved",
   "theorems": [
    "C83_fresh",
    "C83_kept",
    "C83_live",
    "C83_contact_defined",
    "C83_contact_levels",
    "C83_check",
    "C83_snapshot_refuted",
    "C83_weight_refuted",
    "C83_removal_refuted",
    "C83_level_refuted"
   ],
   "note": "The readings \"snapshot\", \"sees later weights\", \"survives removal of a contact\" and \"the level is passed on\" are refuted. Conversion of Python integers to bool by Boost.Python is an assumption."
  },
  {
   "property": "C84",
   "status": "proved",
   "theorems": [
    "C84_joints",
    "C84_frames",
    "C84_forces",
    "C84_posvelacc",
    "C84_posvelacc_fixed",
    "C84_posvelacc_floating",
    "C84_posvelacc_mask",
    "C84_posvelacc_refuted",
    "C84_mask_refuted"
   ],
   "note": "Refuted for TaskJointPosVelAccBounds (floating base, masks); proved for the other tasks. TaskCapturePointInequality has no Python binding."
  },
  {
   "property": "C85",
   "status": "proved",
   "theorems": [
    "C85_fields",
    "C85_active_set_undefined",
    "C85_stale",
    "C85_resized",
    "C85_never_written",
    "C85_current_refuted",
    "C85_status_names",
    "C85_refines",
    "C85_unsolved_x",
    "C85_rt_sizes"
   ],
   "note": "The answers of the libraries are arbitrary. That the fields are current after every call is refuted."
  },
  {
   "property": "C86",
   "status": "proved",
   "theorems": [
    "C86_rows",
    "C86_multipliers",
    "C86_optimal"
   ],
   "note": "Over the reals. How the libraries order and sign the multipliers they return is not part of the repository; the statement is about numbers satisfying the optimality conditions of the QP handed over."
  },
  {
   "property": "C87",
   "status": "proved",
   "theorems": [
    "C87_objective",
    "C87_last",
    "C87_eiquadprog_status",
    "C87_cost_refuted"
   ],
   "note": "C87_objective over the reals, supposing the library returns the value of its QP at x. The reading as cost of the tasks is refuted."
  },
  {
   "property": "C88",
   "status": "proved",
   "theorems": [
    "C88_messages",
    "C88_silent",
    "C88_no_false_alarm",
    "C88_otherwise_quiet"
   ],
   "note": "Over the reals; how numbers are printed is not modelled."
  },
  {
   "property": "C89",
   "status": "proved",
   "theorems": [
    "C89_posture",
    "C89_posture_critical",
    "C89_com",
    "C89_angular_momentum",
    "C89_frame_world",
    "C89_frame_local",
    "C89_two_frames"
   ],
   "note": "Continuous time; the motion satisfying the constraints is a hypothesis. For the orientation see C94."
  },
  {
   "property": "C90",
   "status": "proved",
   "theorems": [
    "C90_tutorials",
    "C90_tests",
    "C90_critical_damping"
   ],
   "note": "Both directions; the converse builds a one-joint robot that follows every orbit."
  },
  {
   "property": "C91",
   "status": "proved",
   "theorems": [
    "C91_ready",
    "C91_stands",
    "C91_walk",
    "C91_left_first_refuted",
    "C91_twice_refuted",
    "C91_transition_refuted"
   ],
   "note": "For any scalar type. References, gains and the numbers in the constraints are not part of the statement; the data given to computeProblemData has the announced sizes."
  },
  {
   "property": "C92",
   "status": "proved",
   "theorems": [
    "C92_plotted",
    "C92_outside_refuted"
   ],
   "note": "Over the reals."
  },
  {
   "property": "C93",
   "status": "proved",
   "theorems": [
    "C93_effect",
    "C93_compute",
    "C93_counters",
    "C93_update",
    "C93_remove_task",
    "C93_remove_contact",
    "C93_dynamics_refuted",
    "C93_resize_refuted",
    "C93_counted_refuted"
   ],
   "note": "computeProblemData at times when no contact transition is over; removeRigidContact without transition."
  },
  {
   "property": "C94",
   "status": "proved",
   "theorems": [
    "C94_stays_near",
    "C94_frame",
    "C94_two_frames"
   ],
   "note": "Continuous time; the motion satisfying the constraints is a hypothesis. log3 is assumed to be the principal logarithm below a half turn (plain_log shows there is one); equal angular gains, no masked angular component; the exponential rate needs a bound on the angular velocity of the reference."
  },
  {
   "property": "C95",
   "status": "proved",
   "theorems": [
    "C95_point",
    "C95_six",
    "C95_two_frames",
    "C95_point_returns",
    "C95_six_returns",
    "C95_two_frames_return",
    "C95_default_drifts"
   ],
   "note": "Continuous time; the motion satisfying the rows is a hypothesis; placement and gains fixed along the motion. log3 assumed principal below a half turn for the 6d contact. Measured forces and force rows play no role here."
  },
  {
   "property": "C96",
   "status": "proved",
   "theorems": [
    "C96_capture",
    "C96_com_inside",
    "C96_com_approaches",
    "C96_ratio",
    "C96_speed",
    "C96_bounded",
    "C96_long_period_refuted",
    "C96_height_refuted"
   ],
   "note": "The centre of mass is taken to move with constant acceleration during a period; the motion satisfying the constraint is a hypothesis. Over the reals."
  },
  {
   "property": "C97",
   "status": "proved",
   "theorems": [
    "C97_acceleration",
    "C97_forces",
    "C97_tasks",
    "C97_plan_is_motion",
    "C97_possible",
    "C97_feet",
    "C97_off_placement"
   ],
   "note": "Over the reals, exact external solver. The equations of motion and the feet held by the ground are hypotheses about the robot; contacts hard (level 0). C97_possible needs equalities with non-negative weights at level 1."
  },
  {
   "property": "C98",
   "status": "proved",
   "theorems": [
    "C98_com",
    "C98_posture",
    "C98_frame"
   ],
   "note": "Continuous time; robot, ground and exact solver as in C97. Position of a frame in world axes; log3 assumed principal below a half turn for the 6d contacts."
  },
  {
   "property": "C99",
   "status": "proved",
   "theorems": [
    "C99_best",
    "C99_errors",
    "C99_bound",
    "C99_met",
    "C99_update",
    "C99_heavier",
    "C99_weights",
    "C99_weights_doubles"
   ],
   "note": "Over the reals, exact external solver; the soft constraints are equalities (the solvers reject others, C25). For heavier weights the force tasks act on contacts present. C99_update: no contact removal in progress."
  },
  {
   "property": "C100",
   "status": "proved",
   "theorems": [
    "C100_order_free",
    "C100_unplaced_refuted"
   ],
   "note": "Over the reals, exact external solver, back-ends with regularisation (not ProxQP and OSQP). Without the proviso on force tasks the claim is refuted."
  },
  {
   "property": "C101",
   "status": "proved",
   "theorems": [
    "C101_tells",
    "C101_tells_matrices",
    "C101_print",
    "C101_defined",
    "C101_newline_refuted"
   ],
   "note": "operator<< for doubles writes no colon and no line end: hypothesis; that of Eigen writes a vector on one line and as many lines for a matrix as its size says: hypothesis. Names without line ends; with them the claim is refuted."
  },
  {
   "property": "C102",
   "status": "proved",
   "theorems": [
    "C102_solution",
    "C102_program",
    "C102_exact_solver"
   ],
   "note": "Over the reals, exact external solver on the problems of the program (C102_exact_solver: such solvers exist). The bounds are for joints whose configuration is one number and that pin.integrate moves by addition. C102_case has the numbers of the exercise."
  },
  {
   "property": "C103",
   "status": "proved",
   "theorems": [
    "C103_starts",
    "C103_turn",
    "C103_goes_on",
    "C103_limits",
    "C103_never_stops",
    "C103_exact_solver",
    "C103_plot",
    "C103_hidden",
    "C103_limits_refuted"
   ],
   "note": "Over the reals, exact external solver (C103_exact_solver: one exists). Both weights of the bounds positive, as in the configuration file. The plot is the list of columns; drawing is not modelled."
  },
  {
   "property": "C104",
   "status": "proved",
   "theorems": [
    "C104_foot",
    "C104_total",
    "C104_reference",
    "C104_reference_refuted"
   ],
   "note": "Over the reals. The stated property is false; C104_foot and C104_total say what is recorded instead. Feet turned about the vertical only in the theorems on the total."
  },
  {
   "property": "C105",
   "status": "proved",
   "theorems": [
    "C105_report",
    "C105_velocity",
    "C105_refuted"
   ],
   "note": "Over the reals; pinocchio data through the same assumptions as C75. The stated property is false for turned feet; C105_report says what is recorded, C105_velocity exactly when it is true."
  },
  {
   "property": "C106",
   "status": "proved",
   "theorems": [
    "C106_returns",
    "C106_best",
    "C106_answer",
    "C106_hard_feet",
    "C106_soft_feet"
   ],
   "note": "Over the reals, exact external solver (C106_answer: one exists when some motion is possible). Feet are added and removed by the rules of C91; same_rows of the last two theorems is what C107_mean proves for the two SE3 tasks."
  },
  {
   "property": "C107",
   "status": "proved",
   "theorems": [
    "C107_mean",
    "C107_between",
    "C107_pulled",
    "C107_stays_refuted"
   ],
   "note": "Over the reals; log3 is a parameter that reads the nine entries of the rotation. The stated property is false; C107_pulled says what is asked instead."
  },
  {
   "property": "C108",
   "status": "proved",
   "theorems": [
    "C108_history",
    "C108_one",
    "C108_loop",
    "C108_walk_task",
    "C108_walk_contact",
    "C108_landed",
    "C108_orientation_refuted",
    "C108_holds_refuted"
   ],
   "note": "Over the reals; log3 is a parameter that reads the nine entries of the rotation. The last two theorems refute what the method names suggest."
  },
  {
   "property": "C109",
   "status": "proved",
   "theorems": [
    "C109_safe",
    "C109_long",
    "C109_short_refuted",
    "C109_fresh",
    "C109_late",
    "C109_coast",
    "C109_removal_refuted"
   ],
   "note": "One binding call at a time. C109_coast is over the reals with an exact external solver. The two refuted theorems say where a button may not be pressed. Also used here: getters are safe with any vector that is long enough for the velocities and for the forces (C54 now assumes only that)."
  },
  {
   "property": "C110",
   "status": "proved",
   "theorems": [
    "C110_soft",
    "C110_pyramid",
    "C110_two_frames",
    "C110_hard_refuted"
   ],
   "note": "Over the reals. The solver can answer: an exact external solver has an answer. The last theorem shows that a hard contact spoils the property."
  },
  {
   "property": "C111",
   "status": "proved",
   "theorems": [
    "C111_gripper_runs",
    "C111_gripper_answers",
    "C111_gripper_holds",
    "C111_closed_refuted",
    "C111_quadruped_runs",
    "C111_quadruped_answers",
    "C111_quadruped_holds",
    "C111_quadruped_reads",
    "C111_gripper_best",
    "C111_quadruped_best"
   ],
   "note": "Over the reals, exact external solver. What the robot, tasks and contacts return is universally quantified data; the force constraints and the torque bounds are those of the contact and task models."
  },
  {
   "property": "C112",
   "status": "proved",
   "theorems": [
    "C112_returns",
    "C112_best",
    "C112_answer",
    "C112_raise",
    "C112_silent",
    "C112_walk",
    "C112_runs",
    "C112_end_refuted"
   ],
   "note": "Over the reals, exact external solver. Weights of the com, cop, am and posture tasks; the loop needs a first phase on the right foot (C91_left_first_refuted) and two equal last entries (C112_end_refuted)."
  },
  {
   "property": "C113",
   "status": "proved",
   "theorems": [
    "C113_last_word",
    "C113_first_word",
    "C113_same",
    "C113_refused",
    "C113_throws",
    "C113_wrong_class",
    "C113_otherwise",
    "C113_constructors",
    "C113_zero",
    "C113_sized",
    "C113_check",
    "C113_resized",
    "C113_bound_matrix_refuted",
    "C113_length_refuted"
   ],
   "note": "All sequences of calls on a constraint object, with and without NDEBUG. Refuted: the matrix of a bound has an effect; the setters of vectors check sizes."
  },
  {
   "property": "C114",
   "status": "proved",
   "theorems": [
    "C114_runs",
    "C114_consistent",
    "C114_plot",
    "C114_plot_refuted",
    "C114_follows",
    "C114_constant",
    "C114_jump"
   ],
   "note": "Over the reals. Measured data and solver answers are arbitrary; C114_follows and C114_constant assume the task is met in each period and constant acceleration between samples."
  },
  {
   "property": "C115",
   "status": "proved",
   "theorems": [
    "C115_runs",
    "C115_in_force",
    "C115_settles"
   ],
   "note": "Over the reals. Measured data and solver answers are arbitrary; C115_settles assumes the task is met and constant acceleration between samples. Slider events take effect between periods."
  }
 ]
}