{
 "claims": [
  {
   "property": "C01",
   "status": "proved",
   "theorems": [
    "C01_rotations_closed"
   ],
   "note": "exact arithmetic; also covers addDelta and the free function Rot(axis)"
  },
  {
   "property": "C02",
   "status": "proved",
   "theorems": [
    "C02_frame_group",
    "C02_frame_action",
    "C02_frame_inverse_action"
   ],
   "note": ""
  },
  {
   "property": "C03",
   "status": "proved",
   "theorems": [
    "C03_power_invariance"
   ],
   "note": ""
  },
  {
   "property": "C04",
   "status": "proved",
   "theorems": [
    "C04_norm",
    "C04_normalize",
    "C04_norm2",
    "C04_norm_axis_permutation_refuted",
    "C04_normalize_refuted"
   ],
   "note": "Norm/Normalize proved with the guard max|component| >= eps; the axis-permutation and 'norm >= eps' readings are refuted by witnesses"
  },
  {
   "property": "C05",
   "status": "proved",
   "theorems": [
    "C05_rot_axis_angle",
    "C05_rot2_rodrigues",
    "C05_short_axis_identity_refuted"
   ],
   "note": "the documented 'identity for a short axis' is refuted"
  },
  {
   "property": "C06",
   "status": "proved",
   "theorems": [
    "C06_axis_angle_roundtrip",
    "C06_axis_angle_every_rotation",
    "C06_angle_range",
    "C06_small_eps_refuted"
   ],
   "note": "exact outside the bands and for symmetric rotations (eps >= global tolerance), within eps for every rotation; eps below the global tolerance refuted"
  },
  {
   "property": "C07",
   "status": "proved",
   "theorems": [
    "C07_quaternion_roundtrip",
    "C07_unit_quaternion_recovered"
   ],
   "note": ""
  },
  {
   "property": "C08",
   "status": "proved",
   "theorems": [
    "C08_rpy_roundtrip",
    "C08_zyx_roundtrip",
    "C08_rpy_every_rotation",
    "C08_rpy_meaning",
    "C08_gimbal_band_refuted"
   ],
   "note": "exact outside the 1e-12 band, within 4e-12 for every rotation; exactness in the band refuted"
  },
  {
   "property": "C09",
   "status": "proved",
   "theorems": [
    "C09_zyz_roundtrip",
    "C09_zyz_every_rotation",
    "C09_zyz_meaning",
    "C09_zyz_default_tolerance_refuted"
   ],
   "note": "exact outside the band, within 2e-6 for every rotation"
  },
  {
   "property": "C10",
   "status": "proved",
   "theorems": [
    "C10_addDelta_diff_linear",
    "C10_addDelta_diff_rotation",
    "C10_addDelta_diff_frame",
    "C10_small_rotation_refuted"
   ],
   "note": "rotations need relative angle away from 0 (or exactly equal) and away from PI (or exact half turn); small rotations refuted"
  },
  {
   "property": "C11",
   "status": "proved",
   "theorems": [
    "C11_denavit_hartenberg"
   ],
   "note": ""
  },
  {
   "property": "C12",
   "status": "proved",
   "theorems": [
    "C12_jacobians",
    "C12_equal_means_close",
    "C12_equal_laws",
    "C12_equal_transitive_refuted"
   ],
   "note": ""
  },
  {
   "property": "C13",
   "status": "proved",
   "theorems": [
    "C13_integrate_rigid",
    "C13_integrate_translation",
    "C13_integrate_rotation",
    "C13_integrate_slow_sampling_refuted"
   ],
   "note": "low sample frequency refuted"
  },
  {
   "property": "C14",
   "status": "proved",
   "theorems": [
    "C14_planar_group",
    "C14_planar_angles",
    "C14_accessor_refuted",
    "C14_accessor3"
   ],
   "note": "2D accessor consistency refuted"
  },
  {
   "property": "C15",
   "status": "proved",
   "theorems": [
    "C15_set2dplane_refuted",
    "C15_set2d_set3d"
   ],
   "note": "Set2DPlane is a no-op (refuted); the other setters are proved inverse"
  },
  {
   "property": "C16",
   "status": "proved",
   "theorems": [
    "C16_joint_twist_is_velocity",
    "C16_segment_twist_is_velocity",
    "C16_velocity_unique",
    "C16_poses_rigid",
    "C16_constructors_ok"
   ],
   "note": ""
  },
  {
   "property": "C17",
   "status": "proved",
   "theorems": [
    "C17_segment_tip",
    "C17_segment_setFrameToTip",
    "C17_segment_pose",
    "C17_segment_copies"
   ],
   "note": ""
  },
  {
   "property": "C18",
   "status": "proved",
   "theorems": [
    "C18_chain_counts",
    "C18_chain_operations_total",
    "C18_self_assignment_refuted",
    "C18_self_append_diverges"
   ],
   "note": "self-assignment empties the chain (refuted), self-append never returns (refuted)"
  },
  {
   "property": "C19",
   "status": "proved",
   "theorems": [
    "C19_forward_kinematics",
    "C19_tip_rigid",
    "C19_concatenation",
    "C19_reachable_wf"
   ],
   "note": ""
  },
  {
   "property": "C20",
   "status": "proved",
   "theorems": [
    "C20_fk_vector",
    "C20_fkvel_vector"
   ],
   "note": ""
  },
  {
   "property": "C21",
   "status": "proved",
   "theorems": [
    "C21_velocity_is_derivative",
    "C21_error_codes"
   ],
   "note": ""
  },
  {
   "property": "C22",
   "status": "proved",
   "theorems": [
    "C22_jacobian_times_velocity",
    "C22_column_is_partial_derivative"
   ],
   "note": ""
  },
  {
   "property": "C23",
   "status": "proved",
   "theorems": [
    "C23_locked_joints",
    "C23_bad_mask_rejected"
   ],
   "note": ""
  },
  {
   "property": "C24",
   "status": "proved",
   "theorems": [
    "C24_jacobian_transforms_in_place",
    "C24_jacobian_transforms_copying"
   ],
   "note": ""
  },
  {
   "property": "C25",
   "status": "proved",
   "theorems": [
    "C25_jacdot_is_derivative",
    "C25_jacdot_twist",
    "C25_locked_refuted"
   ],
   "note": "proved for every solver history without lock masks; with a locked joint the code writes out of bounds (refuted)"
  },
  {
   "property": "C26",
   "status": "proved",
   "theorems": [
    "C26_rne_protocol",
    "C26_rne_recovers",
    "C26_dynparam_protocol",
    "C26_dynparam_recovers",
    "C26_forward_dynamics_recovery_refuted",
    "C26_jacobian_solver_protocol",
    "C26_jacdot_solver_protocol"
   ],
   "note": "Chain kinematics, Jacobian, JacDot, RNE, DynParam and forward dynamics solvers; recovery of the forward dynamics solver refuted"
  },
  {
   "property": "C27",
   "status": "proved",
   "theorems": [
    "C27_wellformed",
    "C27_operations_defined"
   ],
   "note": "every tree reachable by any history of constructors, additions, copies, assignments and subtree extractions"
  },
  {
   "property": "C28",
   "status": "proved",
   "theorems": [
    "C28_tree_to_itself",
    "C28_addSegment",
    "C28_addChain",
    "C28_addChain_atomic_refuted"
   ],
   "note": "addSegment is atomic; addChain/addTree keep the part added before the failure (atomicity refuted)"
  },
  {
   "property": "C29",
   "status": "proved",
   "theorems": [
    "C29_copy",
    "C29_assign_is_copy",
    "C29_self_assignment_refuted",
    "C29_numbering_refuted",
    "C29_solver_numbering_refuted"
   ],
   "note": "the copy keeps structure and renumbers joints depth first; numbering kept iff it was already depth first (refuted in general, with consequence for solvers); self-assignment empties the tree (refuted)"
  },
  {
   "property": "C30",
   "status": "proved",
   "theorems": [
    "C30_missing_name",
    "C30_pose",
    "C30_pose_scaled",
    "C30_pose_defined",
    "C30_scale_refuted",
    "C30_segments",
    "C30_segments_example",
    "C30_python",
    "C30_python_refuted"
   ],
   "note": "pose proved for unit joint scales, and for any scales with the joint values of reversed joints multiplied by their scale; plain statement with scales refuted"
  },
  {
   "property": "C31",
   "status": "proved",
   "theorems": [
    "C31_tree_fk",
    "C31_no_joints_refuted"
   ],
   "note": "in the solver's numbering for every tree, in the user's numbering when depth first; a tree without joints is read out of bounds (refuted)"
  },
  {
   "property": "C32",
   "status": "proved",
   "theorems": [
    "C32_tree_jacobian",
    "C32_user_numbering",
    "C32_no_joints_refuted"
   ],
   "note": "as C31"
  },
  {
   "property": "C33",
   "status": "proved",
   "theorems": [
    "C33_ldl",
    "C33_factorisation_found",
    "C33_size_mismatch"
   ],
   "note": ""
  },
  {
   "property": "C34",
   "status": "proved",
   "theorems": [
    "C34_momentum",
    "C34_kinetic_energy",
    "C34_bodies",
    "C34_transform_momentum",
    "C34_transform_energy",
    "C34_transform_laws",
    "C34_linear",
    "C34_symmetric",
    "C34_positive",
    "C34_cog",
    "C34_cog_frame",
    "C34_articulated_of_rigid",
    "C34_articulated_linear",
    "C34_articulated_transform"
   ],
   "note": ""
  },
  {
   "property": "C35",
   "status": "proved",
   "theorems": [
    "C35_inverse_dynamics_affine",
    "C35_zero_acceleration_split",
    "C35_witness"
   ],
   "note": ""
  },
  {
   "property": "C36",
   "status": "proved",
   "theorems": [
    "C36_mass_matrix_energy",
    "C36_positive_semidefinite",
    "C36_kinetic_positive",
    "C36_positive_definite",
    "C36_definite_links"
   ],
   "note": ""
  },
  {
   "property": "C37",
   "status": "proved",
   "theorems": [
    "C37_forward_inverts_inverse",
    "C37_definite_matrices_have_pivots",
    "C37_arms_with_mass"
   ],
   "note": ""
  },
  {
   "property": "C38",
   "status": "proved",
   "theorems": [
    "C38_one_branch_equals_chain",
    "C38_missing_wrench_is_zero",
    "C38_newton_euler",
    "C38_sum_of_chains",
    "C38_codes",
    "C38_update_restores",
    "C38_failed_call_overwrites_refuted",
    "C38_witness"
   ],
   "note": "both halves for every history of the solver object; also return codes, Newton-Euler equations and decomposition into chains; 'a failed call leaves the torques alone' is refuted"
  },
  {
   "property": "C39",
   "status": "proved",
   "theorems": [
    "C39_gravity_gradient"
   ],
   "note": ""
  },
  {
   "property": "C40",
   "status": "proved",
   "theorems": [
    "C40_trap_profile",
    "C40_limits_keep_old_object",
    "C40_witness"
   ],
   "note": "SetProfile for every start, goal and positive limits."
  },
  {
   "property": "C41",
   "status": "proved",
   "theorems": [
    "C41_duration",
    "C41_velocity",
    "C41_standstill_refuted"
   ],
   "note": "Includes the exact time scaling; SetProfileDuration(p,p,0) computes 0/0 (C41_standstill_refuted)."
  },
  {
   "property": "C42",
   "status": "proved",
   "theorems": [
    "C42_half_profile",
    "C42_half_duration",
    "C42_half_standstill_refuted",
    "C42_half_acceleration_refuted",
    "C42_rect_profile",
    "C42_rect_still",
    "C42_rect_duration",
    "C42_rect_reverse_limit_refuted",
    "C42_rect_zero_duration_refuted",
    "C42_dirac_jump",
    "C42_dirac_ramp"
   ],
   "note": "Positive parts for all inputs; limit violations of TrapHalf::SetProfileDuration and of reverse Rectangular moves as _refuted theorems."
  },
  {
   "property": "C43",
   "status": "proved",
   "theorems": [
    "C43_fresh_spline",
    "C43_instant_spline",
    "C43_velocity",
    "C43_acceleration",
    "C43_linear",
    "C43_cubic",
    "C43_quintic",
    "C43_degenerate",
    "C43_held_outside_refuted"
   ],
   "note": "For T above machine epsilon, which is what the code tests; the behaviour below it is C43_degenerate."
  },
  {
   "property": "C44",
   "status": "proved",
   "theorems": [
    "C44_point_path",
    "C44_line",
    "C44_line_near_tolerance",
    "C44_line_from_twist",
    "C44_circle",
    "C44_line_clone",
    "C44_zero_eqradius_refuted",
    "C44_twist_in_base_frame_refuted",
    "C44_zero_angle_circle_refuted",
    "C44_circle_clone_refuted",
    "C44_line_witness",
    "C44_circle_witness"
   ],
   "note": "Path_Line and Path_Circle run from start to end on a straight line / circle, Vel and Acc are derivatives, speeds normalised, LengthToS inverts arc length. Refuted: zero eqradius drops a pure rotation; the twist constructor applies a base-frame rotation in the moving frame; a circle of angle 0 without rotation cannot be built; Path_Circle::Clone denotes another path."
  },
  {
   "property": "C45",
   "status": "proved",
   "theorems": [
    "C45_cyclic_negative",
    "C45_composite_length",
    "C45_answers",
    "C45_only_covering_component",
    "C45_history_independent",
    "C45_history_independent_pos",
    "C45_velocity",
    "C45_acceleration",
    "C45_cyclic_period",
    "C45_clone",
    "C45_outside_undefined",
    "C45_empty_undefined",
    "C45_no_length_to_s",
    "C45_velocity_at_knot_refuted",
    "C45_composite_witness",
    "C45_cyclic_witness"
   ],
   "note": "Length is the sum; every answer of every reachable object is an answer of the covering component; no history dependence except velocity at knots (refuted there); Vel/Acc derivatives inside components; cyclic period; Clone. Outside the range, or empty: undefined."
  },
  {
   "property": "C46",
   "status": "proved",
   "theorems": [
    "C46_segment_velocity",
    "C46_segment_acceleration",
    "C46_elementary_segment",
    "C46_straight_move",
    "C46_stationary",
    "C46_composite_duration",
    "C46_composite_answers",
    "C46_always_something_playing",
    "C46_playing_unique",
    "C46_composite_motion",
    "C46_via_points",
    "C46_clone",
    "C46_destroy_resets_duration_refuted",
    "C46_empty_composite_undefined",
    "C46_via_points_witness",
    "C46_clone_witness"
   ],
   "note": "Segment derivatives over any path and profile; line with trapezoidal profile end to end incl. duration constructor; composite durations and switching for all histories; composite of rest-to-rest motions is one motion with derivative velocity everywhere; Clone. Refuted: Destroy keeps the old duration. Empty composite: undefined."
  },
  {
   "property": "C47",
   "status": "proved",
   "theorems": [
    "C47_call",
    "C47_log_is_faithful",
    "C47_success",
    "C47_terminates",
    "C47_more_iterations",
    "C47_fk_solver",
    "C47_example",
    "C47_no_limits_refuted",
    "C47_within_limits_refuted",
    "C47_tree_call",
    "C47_tree_log_is_faithful",
    "C47_tree_terminates",
    "C47_tree_endpoints",
    "C47_tree_fk_solver",
    "C47_tree_only_requested_endpoints_refuted"
   ],
   "note": "Inner FK and velocity solvers are arbitrary state machines whose calls are logged. Success means the last logged FK call, at q_out itself, meets the target test, and with a correct FK solver the tip pose is within eps; limits hold once a step was taken; at most maxiter calls; every code characterised; more iterations never lose a success. The tree version likewise. Refuted: the constructor without limits reaches no negative joint value; a converged start outside the limits is returned; twists of endpoints no longer requested still drive the tree solver."
  },
  {
   "property": "C48",
   "status": "proved",
   "theorems": [
    "C48_call",
    "C48_log_is_faithful",
    "C48_getError_refuted",
    "C48_success_pose_refuted",
    "C48_lma_call",
    "C48_lma_constructed",
    "C48_lma_updated",
    "C48_lma_forward",
    "C48_lma_jacobian",
    "C48_lma_svd_example",
    "C48_lma_example",
    "C48_lma_lastDifference_refuted",
    "C48_lma_lastTransDiff_refuted"
   ],
   "note": "Newton-Raphson: calls bounded, exact meaning of every code, success refers to the pose before the last step (refuted for q_out and for getError()). Levenberg-Marquardt, given a correct SVD and a positive joint tolerance: every call returns, the weighted error of q_out never exceeds that of q_init, E_NOERROR iff it is below eps, the other codes mean a small damped least squares step, a small gradient or maxiter iterations; its kinematics and Jacobian are the chain's. Refuted: lastDifference is unweighted after zero iterations, lastTransDiff weighted after maxiter."
  },
  {
   "property": "C49",
   "status": "proved",
   "theorems": [
    "C49_call",
    "C49_log_is_faithful",
    "C49_limits",
    "C49_terminates",
    "C49_endpoints",
    "C49_joint_velocity",
    "C49_cartesian_velocity",
    "C49_cartesian_velocity_equal_limits",
    "C49_cartesian_limit_refuted",
    "C49_cartesian_limit_equal_refuted",
    "C49_only_requested_endpoints_refuted"
   ],
   "note": "Joint velocities are scaled by the largest common factor that meets the limits, q_out is the nearest point of the box to q_in + qdot, every code characterised for arbitrary inner solvers. Cartesian limiting characterised exactly; with equal limits and different norms both speeds are bounded. Refuted: it can speed up, does nothing for equal norms, and stale twists of unrequested endpoints are sent on."
  },
  {
   "property": "C50",
   "status": "proved",
   "theorems": [
    "C50_rall1d_arithmetic",
    "C50_rall1d_scalar_arithmetic",
    "C50_rall1d_functions",
    "C50_rall1d_two_arguments",
    "C50_rall1d_assignment_operators",
    "C50_rall2d_arithmetic",
    "C50_rall2d_scalar_arithmetic",
    "C50_rall2d_functions",
    "C50_rall2d_two_arguments",
    "C50_rall2d_assignment_operators",
    "C50_rall2d_mul_assign",
    "C50_rall2d_mul_assign_refuted"
   ],
   "note": "every operator and elementary function, first and second order; Rall2d operator*= refuted"
  },
  {
   "property": "C51",
   "status": "proved",
   "theorems": [
    "C51_vectorvel",
    "C51_vectorvel_scalar",
    "C51_vectorvel_norm",
    "C51_vectorvel_norm_zero",
    "C51_rotationvel",
    "C51_rotationvel_make",
    "C51_rotationvel_RotY_refuted",
    "C51_rotationvel_RotY_value",
    "C51_framevel",
    "C51_framevel_twist",
    "C51_twistvel",
    "C51_diff_addDelta",
    "C51_framevel_diff_refuted",
    "C51_vectoracc",
    "C51_vectoracc_constant",
    "C51_vectoracc_norm",
    "C51_rotationacc",
    "C51_frameacc",
    "C51_twistacc"
   ],
   "note": "all operators of the velocity and acceleration types; RotationVel::RotY and diff(FrameVel) refuted"
  },
  {
   "property": "C52",
   "status": "proved",
   "theorems": [
    "C52_Add",
    "C52_Subtract",
    "C52_Multiply",
    "C52_Divide",
    "C52_assign",
    "C52_SetToZero",
    "C52_different_sizes_undefined",
    "C52_Equal",
    "C52_construct",
    "C52_resize",
    "C52_resize_zeroes_refuted",
    "C52_vel_Add",
    "C52_vel_Subtract",
    "C52_vel_Add_array",
    "C52_vel_Subtract_array",
    "C52_vel_Multiply",
    "C52_vel_Divide",
    "C52_vel_Multiply_doubleVel",
    "C52_vel_Divide_doubleVel",
    "C52_vel_SetToZero",
    "C52_vel_Equal",
    "C52_vel_Multiply_in_place_refuted",
    "C52_vel_Divide_in_place_refuted",
    "C52_acc_Add",
    "C52_acc_Subtract",
    "C52_acc_Add_vel",
    "C52_acc_Subtract_vel",
    "C52_acc_Add_array",
    "C52_acc_Subtract_array",
    "C52_acc_Multiply",
    "C52_acc_Divide",
    "C52_acc_Multiply_doubleVel",
    "C52_acc_Multiply_doubleAcc",
    "C52_acc_Divide_doubleVel",
    "C52_acc_Divide_doubleAcc",
    "C52_acc_Equal",
    "C52_acc_Multiply_in_place_refuted"
   ],
   "note": "Store model with aliasing: Add/Subtract/Multiply/Divide of JntArray are safe for every aliasing pattern, size mismatch is undefined (Eigen assertion); JntArrayVel/Acc operations carry the motion's derivatives when the destination is a different object. Refuted: resize does not zero (documented); derivative-aware Multiply/Divide in place give wrong velocities/accelerations."
  },
  {
   "property": "C53",
   "status": "proved",
   "theorems": [
    "C53_pinv",
    "C53_pinv_constructed",
    "C53_pinv_updated",
    "C53_nso",
    "C53_nso_constructed",
    "C53_nso_updated",
    "C53_nso_setters",
    "C53_nso_posture_rate",
    "C53_nso_few_joints_refuted",
    "C53_wdls_codes",
    "C53_wdls",
    "C53_wdls_constructed",
    "C53_wdls_updated",
    "C53_wdls_setters",
    "C53_wdls_setWeightJS_stale",
    "C53_wdls_getSigma",
    "C53_setter_errors",
    "C53_wdls_weighted_twist",
    "C53_wdls_identity",
    "C53_wdls_is_pinv",
    "C53_tree_constructed",
    "C53_tree_setters",
    "C53_tree_codes",
    "C53_tree",
    "C53_chain_example",
    "C53_tree_example",
    "C53_pinv_singular_refuted",
    "C53_wdls_default_refuted",
    "C53_tree_default_refuted",
    "C53_wdls_weight_shape_refuted"
   ],
   "note": "pinv, pinv_nso, wdls and tree wdls, with the singular value routine as an oracle whose result is assumed correct (svd_of) for the matrix at hand. Refuted parts: singularity of chains with fewer than six joints is not reported, nso and wdls are undefined for fewer than six joints, lambda 0 divides by zero at a singular position, weight setters compare only the number of entries."
  },
  {
   "property": "C54",
   "status": "proved",
   "theorems": [
    "C54_eigen_code",
    "C54_svd_hh_code",
    "C54_eigen_limit_one",
    "C54_svd_hh_limit_one",
    "C54_eigen_limit_zero",
    "C54_svd_hh_limit_zero",
    "C54_failure_is_reported_refuted",
    "C54_success_is_reported_refuted"
   ],
   "note": "the code is computed for every matrix and limit, for both routines, and shown to carry no information about convergence; both directions of the claim are refuted. Convergence tests use a rounding function that keeps 0 and 1"
  },
  {
   "property": "C55",
   "status": "proved",
   "theorems": [
    "C55_Vector_same",
    "C55_Twist_same",
    "C55_Wrench_same",
    "C55_Rotation_same",
    "C55_Frame_same",
    "C55_Vector2_same",
    "C55_same_witness",
    "C55_Vector_back",
    "C55_Twist_back",
    "C55_Wrench_back",
    "C55_Rotation_back",
    "C55_Frame_back",
    "C55_Vector2_back",
    "C55_default_precision_error",
    "C55_default_precision_same_refuted",
    "C55_Vector_only",
    "C55_Twist_only",
    "C55_Wrench_only",
    "C55_Rotation_only",
    "C55_Frame_only",
    "C55_Vector2_only",
    "C55_Vector_reads",
    "C55_Twist_reads",
    "C55_Wrench_reads",
    "C55_Rotation_reads",
    "C55_Frame_reads",
    "C55_Vector2_reads",
    "C55_ZERO_reads",
    "C55_IDENTITY_reads",
    "C55_Twist_value_or_exception",
    "C55_Wrench_value_or_exception",
    "C55_Vector2_value_or_exception",
    "C55_Rotation2_value_or_exception",
    "C55_Vector_value_or_exception",
    "C55_Vector_ends",
    "C55_Rotation_ends",
    "C55_Frame_ends",
    "C55_long_word_raises_refuted",
    "C55_slash_raises_refuted",
    "C55_short_Rotation_raises_refuted",
    "C55_short_Frame_raises_refuted",
    "C55_word_at_end_refuted",
    "C55_exception_keeps_value_refuted",
    "C55_Rotation2_unchanged",
    "C55_Frame2_rotation_unchanged",
    "C55_Rotation2_same_refuted",
    "C55_keyword_case",
    "C55_Upper_letter",
    "C55_Eat_description",
    "C55_Eat_description_letter",
    "C55_Eat_description_space",
    "C55_Eat_description_example",
    "C55_number_at_end",
    "C55_number_missing",
    "C55_failed_read_fills_prefix",
    "C55_malformed_number_is_zero"
   ],
   "note": "stream, number parsing and number formatting modelled in Gallina (C locale, no infinities, NaN or overflow); strtod rounds correctly. Round trip exact for 17 digits and doubles; soundness and completeness of every reader against a separate grammar; value-or-exception proved for Twist, Wrench, Vector2, Rotation2 on every stream and for Vector outside two kinds of text. Refuted: default precision keeps the value, overlong words and truncated texts raise, exceptions leave the object alone, Rotation2 is read."
  },
  {
   "property": "C56",
   "status": "proved",
   "theorems": [
    "C56_joint_geometry_cardinal",
    "C56_joint_geometry_axis",
    "C56_constructor_exceptions"
   ],
   "note": ""
  },
  {
   "property": "C57",
   "status": "proved",
   "theorems": [
    "C57_addTree",
    "C57_getSubTree"
   ],
   "note": "addTree/getSubTree characterised exactly"
  },
  {
   "property": "C58",
   "status": "proved",
   "theorems": [
    "C58_energy_balance"
   ],
   "note": ""
  },
  {
   "property": "C59",
   "status": "proved",
   "theorems": [
    "C59_velocity_is_classical",
    "C59_position_update",
    "C59_position_is_classical_refuted"
   ],
   "note": "velocity update proved classical; position update refuted (finding)"
  },
  {
   "property": "C60",
   "status": "proved",
   "theorems": [
    "C60_time_optimal",
    "C60_attained"
   ],
   "note": "Acceleration bound of the competitor stated as a Lipschitz bound on velocity."
  },
  {
   "property": "C61",
   "status": "proved",
   "theorems": [
    "C61_trap_clone",
    "C61_rect_clone",
    "C61_dirac_clone",
    "C61_spline_clone",
    "C61_half_clone_refuted"
   ],
   "note": "TrapHalf refuted."
  },
  {
   "property": "C62",
   "status": "proved",
   "theorems": [
    "C62_rejections",
    "C62_rejections_witness",
    "C62_corner",
    "C62_polyline",
    "C62_short_legs_refuted",
    "C62_failed_add_changes_path_refuted",
    "C62_single_point_refuted",
    "C62_polyline_witness_corners",
    "C62_polyline_witness"
   ],
   "note": "Per-corner geometry and the finished polyline (equal orientations at the way points for the latter). Refuted: Add not atomic; short legs; single point."
  },
  {
   "property": "C63",
   "status": "proved",
   "theorems": [
    "C63_joint_limits",
    "C63_nrjl_constructed",
    "C63_nrjl_updated",
    "C63_no_limits_values",
    "C63_lma_constructed",
    "C63_lma_constructed_default",
    "C63_trap_unplanned",
    "C63_half_zero_duration",
    "C63_example",
    "C63_jacobian_mask",
    "C63_derivative_mask",
    "C63_representation",
    "C63_representation_history"
   ],
   "note": ""
  },
  {
   "property": "C64",
   "status": "proved",
   "theorems": [
    "C64_eigen_accuracy",
    "C64_svd_hh_accuracy",
    "C64_eigen_accuracy_any",
    "C64_eigen_accuracy_unless_fooled",
    "C64_svd_hh_accuracy_unless_fooled",
    "C64_eigen_exact",
    "C64_svd_hh_exact",
    "C64_double_units",
    "C64_double_rounds",
    "C64_witness",
    "C64_larger_matrices_refuted",
    "C64_double_units2"
   ],
   "note": "accuracy, orthonormality, order and sign for every matrix of Frobenius norm below two, and for every matrix if the misplaced parenthesis changed no decision in the run; double precision rounding shown to meet the hypotheses; without these conditions refuted by a 2x2 matrix. Only the sums in the convergence tests are rounded, the rest is exact real arithmetic"
  },
  {
   "property": "C65",
   "status": "proved",
   "theorems": [
    "C65_equations_of_motion",
    "C65_free_motion",
    "C65_equals_forward_dynamics",
    "C65_constraints_met",
    "C65_least_violation",
    "C65_gauss",
    "C65_link_accelerations",
    "C65_total_torque",
    "C65_constraint_torque",
    "C65_inverse_dynamics",
    "C65_torque_is_command_refuted",
    "C65_constraint_force_sign_refuted",
    "C65_defined",
    "C65_fixed_joint_undefined",
    "C65_stale_joint_count_undefined",
    "C65_codes",
    "C65_getters_before_call",
    "C65_history",
    "C65_nonvacuous"
   ],
   "note": "equations of motion, least violation, Gauss principle, torques, definedness and history independence for every chain without fixed joints; the singular value routine is an oracle (hypothesis svd_right where needed, C64 is about the actual routine); the two documented readings of constraint_torque and alpha*nu are refuted on two sliders in series"
  },
  {
   "property": "C66",
   "status": "proved",
   "theorems": [
    "C66_estimate_is_observer",
    "C66_input_is_external_torque",
    "C66_observer_converges",
    "C66_tracks_external_torque",
    "C66_unfiltered_rate",
    "C66_gain_limit",
    "C66_wrench_least_squares",
    "C66_tip_load_torque",
    "C66_wrench_error",
    "C66_static_load_found",
    "C66_initial_momentum",
    "C66_initial_momentum_refuted",
    "C66_momentum_after_sample",
    "C66_codes",
    "C66_start_codes",
    "C66_update_then_estimate_refuted",
    "C66_update_without_joints_refuted",
    "C66_nonvacuous"
   ],
   "note": "refinement of the object by one observer per joint through all histories, geometric convergence with an explicit stability limit, least squares and error bound of the wrench, static load end to end, return codes; mass matrix, Coriolis and gravity terms are those of ChainDynParam (C35, C36, C39); the singular value routine is an oracle"
  },
  {
   "property": "C67",
   "status": "proved",
   "theorems": [
    "C67_column_call_least_squares",
    "C67_row_call_six_joints",
    "C67_column_call_redundant",
    "C67_first_call",
    "C67_first_call_least_squares_refuted",
    "C67_dependent_columns_never_return",
    "C67_singular_never_returns",
    "C67_first_call_singular",
    "C67_first_call_zero_row",
    "C67_planar_arm_never_returns",
    "C67_blind_calls",
    "C67_fresh_answer_refuted",
    "C67_orthogonal_start_undefined",
    "C67_one_joint_undefined",
    "C67_gantry_undefined",
    "C67_longer_chain",
    "C67_positive_singular_values",
    "C67_codes",
    "C67_nonvacuous"
   ],
   "note": "termination and error bounds for full-rank Jacobians through all histories of one chain; non-termination at singular configurations, undefined reads, stale factors and the first call's leading block proved as findings; the accuracy claim without the restriction is refuted by concrete chains; doubles are reals, so rounding is not in the error bound; objects whose chain changes its joint count are outside"
  },
  {
   "property": "C68",
   "status": "proved",
   "theorems": [
    "C68_path_complete",
    "C68_profile_complete",
    "C68_trajectory_complete",
    "C68_path_only",
    "C68_profile_only",
    "C68_trajectory_only",
    "C68_readers_end",
    "C68_path_back",
    "C68_profile_back",
    "C68_segment_back",
    "C68_lines_rounded",
    "C68_lines_same",
    "C68_lines_witness",
    "C68_stationary_refused",
    "C68_composite_refused",
    "C68_spline_refused",
    "C68_axes_refused",
    "C68_cut_short_defined_refuted",
    "C68_long_keyword_defined_refuted",
    "C68_profile_leaves_stream_good_refuted",
    "C68_circle_text",
    "C68_circle_same_refuted",
    "C68_circle_readable_refuted",
    "C68_motion_lost",
    "C68_segment_stands_still",
    "C68_duration_kept_refuted"
   ],
   "note": "Readers are complete and sound for the grammar of MioSpec and always finish; written texts of points, lines, composites, cyclic paths, profiles and segments are accepted and describe the numbers written after rounding. Refuted clauses proved with witnesses: circles, profile motion, cut-off texts, long keywords, stream state."
  },
  {
   "property": "C69",
   "status": "proved",
   "theorems": [
    "C69_pinv_accurate",
    "C69_pinv_accurate_double",
    "C69_pinv_accurate_example",
    "C69_pinv_accurate_refuted",
    "C69_pinv_accurate_double_refuted"
   ],
   "note": "end to end: the solver model with the SVD_HH model inside. Condition: the run is the one a rounding that never answers -1 would give (decidable from the run); without it refuted by a two-joint machine. Only the sums in the convergence tests are rounded, the rest is exact real arithmetic"
  },
  {
   "property": "C70",
   "status": "proved",
   "theorems": [
    "C70_lma_converges",
    "C70_lma_example",
    "C70_nr_converges",
    "C70_nrjl_converges",
    "C70_nr_pinv_converges",
    "C70_nrjl_pinv_converges",
    "C70_converges_example",
    "C70_nr_wdls_converges",
    "C70_nrjl_wdls_converges",
    "C70_wdls_example",
    "C70_nr_regular",
    "C70_nrjl_regular",
    "C70_regular_example"
   ],
   "note": "local convergence with an iteration bound for any accurate inner velocity solver, for the own pseudo-inverse, for the own weighted damped solver and for the Levenberg-Marquardt solver, given a correct decomposition near the position; the size of the neighbourhood and the constants are shown to exist, not computed; exact real arithmetic"
  },
  {
   "property": "C71",
   "status": "proved",
   "theorems": [
    "C71_fk_error",
    "C71_fk_double",
    "C71_fk_code",
    "C71_double_rounds",
    "C71_libm_sin",
    "C71_libm_cos",
    "C71_fk_example",
    "C71_no_exact_rotation",
    "C71_rigid_refuted"
   ],
   "note": "absolute error per operation eps*(|x|+1): covers underflow, not overflow or NaN; refuted part: exact orthonormality of computed rotations"
  },
  {
   "property": "C72",
   "status": "proved",
   "theorems": [
    "C72_Add",
    "C72_Subtract",
    "C72_different_sizes_undefined",
    "C72_Multiply",
    "C72_Divide",
    "C72_assign",
    "C72_SetToZero",
    "C72_construct",
    "C72_default",
    "C72_set_entry",
    "C72_outside_undefined",
    "C72_Equal",
    "C72_resize",
    "C72_resize_contents_refuted",
    "C72_Multiply_array",
    "C72_Multiply_array_size",
    "C72_Multiply_in_place_refuted",
    "C72_example",
    "C72_Multiply_array_example"
   ],
   "note": "refuted parts: in-place product with an array, contents after resize; coefficients of a lazy product are stored one after the other"
  },
  {
   "property": "C73",
   "status": "proved",
   "theorems": [
    "C73_inverse_of_product",
    "C73_product_of_inverse",
    "C73_sum",
    "C73_linear",
    "C73_work",
    "C73_work_zero",
    "C73_default",
    "C73_from_array",
    "C73_from_short_array",
    "C73_random_double",
    "C73_posrandom_double",
    "C73_random_stiffness",
    "C73_example"
   ],
   "note": "exact real arithmetic"
  },
  {
   "property": "C74",
   "status": "proved",
   "theorems": [
    "C74_balanced",
    "C74_pop_empty_undefined",
    "C74_popStr",
    "C74_popStr_empty",
    "C74_popStr_no_room",
    "C74_popStr_overrun",
    "C74_output",
    "C74_balanced_example",
    "C74_popStr_example"
   ],
   "note": "the POSIX branch (strncpy) of IOTracePopStr"
  },
  {
   "property": "C75",
   "status": "proved",
   "theorems": [
    "C75_tree2str_lines",
    "C75_tree2str_determines",
    "C75_tree2str_determines_refuted",
    "C75_tree_case",
    "C75_Tree_layout",
    "C75_Tree_determines",
    "C75_Joint_determines",
    "C75_Segment_determines",
    "C75_Chain_text",
    "C75_Chain_determines",
    "C75_agree_exact",
    "C75_Joint_complete_refuted",
    "C75_Joint_case",
    "C75_JntArray_cells",
    "C75_JntArray_determines",
    "C75_Jacobian_cells",
    "C75_JntSpaceInertiaMatrix_cells",
    "C75_JntArray_case",
    "C75_JntArray_determines_refuted",
    "C75_read_unchanged",
    "C75_read_back_refuted"
   ],
   "note": "refuted parts: names that start with the separator, numbers of 13 digits, scale of a joint, reading back; stream flags are the default ones"
  },
  {
   "property": "C76",
   "status": "proved",
   "theorems": [
    "C76_Equal_members",
    "C76_operators",
    "C76_Equal_laws",
    "C76_mixed_velocity",
    "C76_mixed_acceleration",
    "C76_literal_equality_refuted",
    "C76_combine_range",
    "C76_combine_injective",
    "C76_hash_range",
    "C76_every_member_counts",
    "C76_every_member_counts_position",
    "C76_hash_contract_only_constant",
    "C76_hash_contract_rotations",
    "C76_hash_contract_frames",
    "C76_case_hash",
    "C76_case_lost_key"
   ],
   "note": "refuted parts: literal equality, transitivity, agreement of == with the hash; size_t has 64 bits, std::hash<double> is any function"
  },
  {
   "property": "C77",
   "status": "proved",
   "theorems": [
    "C77_getitem",
    "C77_setitem",
    "C77_getitem_matrix",
    "C77_setitem_matrix",
    "C77_iteration",
    "C77_frame_matrix_defined",
    "C77_frame_matrix_action",
    "C77_frame_matrix_product",
    "C77_frame_matrix_inverse",
    "C77_Make4x4",
    "C77_set_columns",
    "C77_access_precondition",
    "C77_planar_entries",
    "C77_planar_matrix_refuted",
    "C77_pickle",
    "C77_pickle_exact_refuted",
    "C77_unpickle_any",
    "C77_unpickle_class",
    "C77_unpickle_wrong_size"
   ],
   "note": "refuted parts: the two-index access of planar frames, exact pickling of rotations; objects of Python are modelled as values"
  },
  {
   "property": "C78",
   "status": "proved",
   "theorems": [
    "C78_no_undefined_behaviour",
    "C78_pointers_stay_valid",
    "C78_delete_in_any_order",
    "C78_nothing_leaks",
    "C78_clone_is_deep",
    "C78_borrowed_survive",
    "C78_borrower_copy",
    "C78_implicit_copy_deletes_twice",
    "C78_rounded_constructor_refuted",
    "C78_read_rounded_refuted",
    "C78_clone_trajectory_refuted",
    "C78_borrowing_circle_refuted",
    "C78_borrowing_composite_refuted",
    "C78_borrowing_cyclic_refuted"
   ],
   "note": "heap of objects with the pointers they hold; their numbers are not in this model; refuted parts are named in the statement"
  },
  {
   "property": "C79",
   "status": "proved",
   "theorems": [
    "C79_jacobian_error",
    "C79_near_derivative",
    "C79_jacobian_double",
    "C79_code",
    "C79_example"
   ],
   "note": "no overflow, infinities or NaN; no fused operations"
  },
  {
   "property": "C80",
   "status": "proved",
   "theorems": [
    "C80_puma_built",
    "C80_puma_pose",
    "C80_puma_wrist",
    "C80_puma_singularities",
    "C80_example",
    "C80_puma_inverse_kinematics",
    "C80_puma_dynamics",
    "C80_puma_mass",
    "C80_puma_forward_dynamics",
    "C80_kuka_built",
    "C80_kuka_pose",
    "C80_kuka_reach",
    "C80_kuka_masses",
    "C80_kuka_wrist",
    "C80_kuka_inertia_refuted"
   ],
   "note": "exact arithmetic and exact PI/2 for the Puma; the claim that the Kuka links have physical inertias is refuted"
  },
  {
   "property": "C81",
   "status": "proved",
   "theorems": [
    "C81_undefined_exactly_when",
    "C81_only_calls",
    "C81_names_kept",
    "C81_names_kept_example",
    "C81_keep_alive_would_suffice",
    "C81_lifetime_refuted",
    "C81_lifetime_refuted_solvers",
    "C81_tree_solvers_own_a_copy",
    "C81_chain_solvers_see_changes",
    "C81_copies_example",
    "C81_attribute_is_a_part",
    "C81_attribute_stays",
    "C81_write",
    "C81_assign",
    "C81_copy",
    "C81_attributes_example",
    "C81_layout",
    "C81_attribute_classes",
    "C81_type_errors",
    "C81_chain_copy"
   ],
   "note": "segments are numbers and a solver call is what it reads; that Python solvers keep what they refer to alive is refuted"
  },
  {
   "property": "C82",
   "status": "proved",
   "theorems": [
    "C82_layout",
    "C82_layout_numbers",
    "C82_determines",
    "C82_exact",
    "C82_example"
   ],
   "note": "default stream flags; Rall numbers over double, with the compiler's name of double as a parameter"
  },
  {
   "property": "C83",
   "status": "proved",
   "theorems": [
    "C83_velocity_error",
    "C83_near_derivative",
    "C83_velocity_double",
    "C83_same_pose",
    "C83_code",
    "C83_example"
   ],
   "note": "no overflow, infinities or NaN; no fused multiply-add"
  },
  {
   "property": "C84",
   "status": "proved",
   "theorems": [
    "C84_nrjl_pinv",
    "C84_nr_pinv",
    "C84_nrjl_nso",
    "C84_nr_nso",
    "C84_nrjl_wdls",
    "C84_nr_wdls",
    "C84_tree_nrjl",
    "C84_tree_online",
    "C84_ready_chain",
    "C84_ready_tree",
    "C84_example_chain",
    "C84_example_tree"
   ],
   "note": "the decomposition is an arbitrary function; for _wdls it must be right when it reports success. The tree needs a joint, and every endpoint must be a segment of it."
  },
  {
   "property": "C85",
   "status": "proved",
   "theorems": [
    "C85_tree_error",
    "C85_path",
    "C85_tree_double",
    "C85_tree_code",
    "C85_same_as_chain",
    "C85_double_zero",
    "C85_double_one",
    "C85_example"
   ],
   "note": "rounding as in C71; the tree needs a joint, as in C31. The bound is against the tree the solver holds (its own copy, numbered depth first)."
  },
  {
   "property": "C86",
   "status": "proved",
   "theorems": [
    "C86_rotation_error",
    "C86_linear",
    "C86_orthonormal",
    "C86_rotation_double",
    "C86_frame_error",
    "C86_point_error",
    "C86_weight",
    "C86_frame_double",
    "C86_spin_example",
    "C86_back_example"
   ],
   "note": "rounding as in C71: every operation errs by at most eps (|x|+1). Rotation::Rot and Rot(vector), which normalise, are not among the nested calls."
  },
  {
   "property": "C87",
   "status": "proved",
   "theorems": [
    "C87_quaternion_error",
    "C87_length",
    "C87_matrix_round_trip",
    "C87_quaternion_round_trip",
    "C87_double",
    "C87_program",
    "C87_sign_refuted",
    "C87_turn_example"
   ],
   "note": "rounding as in C71 and C86, square root and division rounded like the other operations; C87_sign_refuted shows why the statement is about some unit quaternion of the rotation and not about the one exact arithmetic returns."
  },
  {
   "property": "C88",
   "status": "proved",
   "theorems": [
    "C88_norm",
    "C88_normalize",
    "C88_unit",
    "C88_short",
    "C88_joint_axis",
    "C88_rot",
    "C88_rot_program",
    "C88_double",
    "C88_double_rot",
    "C88_scale_example"
   ],
   "note": "rounding has relative error eps down to numbers far below 1e-6 (doubles do); exponents are unbounded above, so overflow is not modelled. Between half and twice epsilon exact and rounded arithmetic may take different sides of the threshold, where the exact function itself jumps (C05)."
  },
  {
   "property": "C89",
   "status": "proved",
   "theorems": [
    "C89_torques",
    "C89_every_call",
    "C89_coriolis_gravity",
    "C89_limit",
    "C89_digits",
    "C89_example",
    "C89_stored"
   ],
   "note": "the constant is shown to exist, not computed; the chain is stored exactly; exponents are unbounded, so overflow is not modelled; Eigen sums three products from left to right."
  },
  {
   "property": "C90",
   "status": "proved",
   "theorems": [
    "C90_mass",
    "C90_forward",
    "C90_any_buffers",
    "C90_arms_with_mass",
    "C90_round_trip",
    "C90_trip_back",
    "C90_solver",
    "C90_example",
    "C90_refused",
    "C90_solver_refused",
    "C90_refused_example",
    "C90_stored_mass",
    "C90_stored_forward"
   ],
   "note": "forward dynamics: for errors below a bound that depends on the arm and its state; the constants and that bound are shown to exist, not computed; the chain is stored exactly; exponents are unbounded, so overflow is not modelled; Eigen sums three products from left to right."
  },
  {
   "property": "C91",
   "status": "proved",
   "theorems": [
    "C91_simulation",
    "C91_any_buffers",
    "C91_limit",
    "C91_stage",
    "C91_example"
   ],
   "note": "constant torques and wrenches; every stage starts from the buffers of the same object, whatever they hold; the constant and the bound on the error are shown to exist and depend on the number of steps; the position update is the one of the code (C59), not the classical one; overflow is not modelled."
  }
 ]
}