# What `Print Assumptions` lists for each theorem

Letters: **D** `ClassicalDedekindReals.sig_forall_dec`, **N** `ClassicalDedekindReals.sig_not_dec`,
**F** `FunctionalExtensionality.functional_extensionality_dep`, **C** `Classical_Prop.classic`;
all four are axioms of the standard library (the first three carry its real numbers, the last
comes in through its library of limits and derivatives and through Flocq, which adds none of its own).
`-` means closed under the global context.

## ConfigProps.v

* -: `C63_joint_limits`
* DF: `C63_nrjl_constructed`, `C63_nrjl_updated`, `C63_no_limits_values`, `C63_lma_constructed_default`, `C63_trap_unplanned`, `C63_example`, `C12_jacobians`
* D: `C63_lma_constructed`
* DNF: `C63_half_zero_duration`

## DioProps.v

* DNCF: `C82_layout`, `C82_layout_numbers`, `C82_determines`, `C82_exact`, `C82_example`

## DualProps.v

* DF: `C50_rall1d_arithmetic`, `C50_rall1d_scalar_arithmetic`, `C50_rall1d_assignment_operators`, `C50_rall2d_arithmetic`, `C50_rall2d_scalar_arithmetic`, `C50_rall2d_assignment_operators`, `C50_rall2d_mul_assign`, `C50_rall2d_mul_assign_refuted`, `C51_vectorvel`, `C51_vectorvel_scalar`, `C51_rotationvel`, `C51_framevel`, `C51_framevel_twist`, `C51_twistvel`, `C51_vectoracc`, `C51_vectoracc_constant`, `C51_rotationacc`, `C51_frameacc`, `C51_twistacc`
* DNCF: `C50_rall1d_functions`, `C50_rall1d_two_arguments`, `C50_rall2d_functions`, `C50_rall2d_two_arguments`, `C51_diff_addDelta`, `C51_framevel_diff_refuted`
* DNF: `C51_vectorvel_norm`, `C51_vectorvel_norm_zero`, `C51_rotationvel_make`, `C51_rotationvel_RotY_refuted`, `C51_rotationvel_RotY_value`, `C51_vectoracc_norm`

## DynProps.v

* DNF: `C35_inverse_dynamics_affine`, `C35_zero_acceleration_split`, `C36_mass_matrix_energy`, `C36_positive_semidefinite`, `C37_forward_inverts_inverse`, `C39_gravity_gradient`, `C58_energy_balance`, `C26_rne_protocol`, `C26_rne_recovers`, `C26_dynparam_protocol`, `C26_dynparam_recovers`, `C26_forward_dynamics_recovery_refuted`, `C35_witness`
* DF: `C37_definite_matrices_have_pivots`, `C59_velocity_is_classical`, `C59_position_update`, `C59_position_is_classical_refuted`

## EdgeProps.v

* DF: `C43_fresh_spline`, `C43_instant_spline`, `C45_cyclic_negative`
* -: `C63_jacobian_mask`, `C63_derivative_mask`, `C63_representation`
* DNF: `C63_representation_history`, `C28_tree_to_itself`
* DNCF: `C44_point_path`, `C62_rejections`, `C62_rejections_witness`

## EqProps.v

* DF: `C76_Equal_members`, `C76_operators`, `C76_Equal_laws`, `C76_mixed_velocity`, `C76_mixed_acceleration`, `C76_literal_equality_refuted`, `C76_every_member_counts`, `C76_case_hash`, `C76_case_lost_key`
* -: `C76_combine_range`, `C76_combine_injective`
* DNCF: `C76_hash_range`, `C76_hash_contract_rotations`, `C76_hash_contract_frames`
* DNF: `C76_every_member_counts_position`, `C76_hash_contract_only_constant`

## EwProps.v

* DNF: `C66_estimate_is_observer`, `C66_input_is_external_torque`, `C66_observer_converges`, `C66_tracks_external_torque`, `C66_gain_limit`, `C66_wrench_least_squares`, `C66_tip_load_torque`, `C66_wrench_error`, `C66_static_load_found`, `C66_initial_momentum`, `C66_initial_momentum_refuted`, `C66_momentum_after_sample`, `C66_codes`, `C66_start_codes`, `C66_update_then_estimate_refuted`, `C66_nonvacuous`
* DF: `C66_unfiltered_rate`
* D: `C66_update_without_joints_refuted`

## FlDynProps.v

* DNCF: `C89_torques`, `C89_every_call`, `C89_coriolis_gravity`, `C89_limit`, `C89_digits`, `C89_example`

## FlJacProps.v

* DNCF: `C79_jacobian_error`, `C79_near_derivative`, `C79_jacobian_double`, `C79_example`
* DNF: `C79_code`

## FlMassProps.v

* DNCF: `C90_mass`, `C90_forward`, `C90_any_buffers`, `C90_arms_with_mass`, `C90_round_trip`, `C90_trip_back`, `C90_example`
* DNF: `C90_solver`, `C90_refused`, `C90_refused_example`
* DF: `C90_solver_refused`

## FlNormProps.v

* DNF: `C88_norm`, `C88_normalize`, `C88_unit`, `C88_short`, `C88_joint_axis`, `C88_rot_program`
* DNCF: `C88_rot`, `C88_double`, `C88_double_rot`, `C88_scale_example`

## FlProps.v

* DNCF: `C71_fk_error`, `C71_fk_double`, `C71_double_rounds`, `C71_libm_sin`, `C71_libm_cos`, `C71_fk_example`, `C71_no_exact_rotation`, `C71_rigid_refuted`
* DNF: `C71_fk_code`

## FlQuatProps.v

* DNF: `C87_quaternion_error`, `C87_length`, `C87_matrix_round_trip`, `C87_quaternion_round_trip`
* DNCF: `C87_double`, `C87_program`, `C87_sign_refuted`, `C87_turn_example`

## FlRotProps.v

* DNCF: `C86_rotation_error`, `C86_orthonormal`, `C86_rotation_double`, `C86_frame_error`, `C86_point_error`, `C86_frame_double`, `C86_spin_example`, `C86_back_example`
* DF: `C86_linear`
* -: `C86_weight`

## FlSimProps.v

* DNCF: `C91_simulation`, `C91_any_buffers`, `C91_limit`, `C91_example`, `C89_stored`, `C90_stored_mass`, `C90_stored_forward`
* DNF: `C91_stage`

## FlTreeProps.v

* DNCF: `C85_tree_error`, `C85_tree_double`, `C85_double_zero`, `C85_double_one`, `C85_example`
* DNF: `C85_path`, `C85_tree_code`, `C85_same_as_chain`

## FlVelProps.v

* DNCF: `C83_velocity_error`, `C83_near_derivative`, `C83_velocity_double`, `C83_example`
* D: `C83_same_pose`
* DNF: `C83_code`

## FramesProps.v

* DNF: `C01_rotations_closed`, `C04_norm`, `C04_normalize`, `C04_norm2`, `C04_norm_axis_permutation_refuted`, `C04_normalize_refuted`, `C05_rot_axis_angle`, `C05_rot2_rodrigues`, `C05_short_axis_identity_refuted`, `C07_quaternion_roundtrip`, `C07_unit_quaternion_recovered`, `C08_rpy_meaning`, `C09_zyz_meaning`, `C11_denavit_hartenberg`, `C13_integrate_rigid`, `C13_integrate_translation`, `C13_integrate_rotation`, `C13_integrate_slow_sampling_refuted`
* DF: `C02_frame_group`, `C02_frame_action`, `C02_frame_inverse_action`, `C03_power_invariance`, `C10_addDelta_diff_linear`, `C12_equal_means_close`, `C12_equal_laws`, `C12_equal_transitive_refuted`, `C14_planar_group`, `C14_accessor_refuted`, `C14_accessor3`, `C15_set2dplane_refuted`, `C15_set2d_set3d`
* DNCF: `C06_axis_angle_roundtrip`, `C06_axis_angle_every_rotation`, `C06_angle_range`, `C06_small_eps_refuted`, `C08_rpy_roundtrip`, `C08_zyx_roundtrip`, `C08_rpy_every_rotation`, `C08_gimbal_band_refuted`, `C09_zyz_roundtrip`, `C09_zyz_every_rotation`, `C09_zyz_default_tolerance_refuted`, `C10_addDelta_diff_rotation`, `C10_addDelta_diff_frame`, `C10_small_rotation_refuted`, `C14_planar_angles`

## GivensProps.v

* DNF: `C67_column_call_least_squares`, `C67_row_call_six_joints`, `C67_column_call_redundant`, `C67_first_call`, `C67_first_call_least_squares_refuted`, `C67_dependent_columns_never_return`, `C67_singular_never_returns`, `C67_first_call_singular`, `C67_first_call_zero_row`, `C67_planar_arm_never_returns`, `C67_blind_calls`, `C67_fresh_answer_refuted`, `C67_orthogonal_start_undefined`, `C67_one_joint_undefined`, `C67_gantry_undefined`, `C67_longer_chain`, `C67_positive_singular_values`, `C67_codes`, `C67_nonvacuous`

## HdProps.v

* DNF: `C65_equations_of_motion`, `C65_free_motion`, `C65_equals_forward_dynamics`, `C65_constraints_met`, `C65_least_violation`, `C65_gauss`, `C65_link_accelerations`, `C65_total_torque`, `C65_constraint_torque`, `C65_inverse_dynamics`, `C65_torque_is_command_refuted`, `C65_constraint_force_sign_refuted`, `C65_defined`, `C65_fixed_joint_undefined`, `C65_stale_joint_count_undefined`, `C65_codes`, `C65_history`, `C65_nonvacuous`
* DF: `C65_getters_before_call`

## IkOwnProps.v

* DNCF: `C84_nrjl_pinv`, `C84_nr_pinv`, `C84_nrjl_nso`, `C84_nr_nso`, `C84_nrjl_wdls`, `C84_nr_wdls`, `C84_tree_nrjl`, `C84_tree_online`
* DF: `C84_ready_chain`
* DNF: `C84_ready_tree`, `C84_example_chain`, `C84_example_tree`

## IkProps.v

* DNCF: `C47_call`, `C47_log_is_faithful`, `C47_success`, `C47_terminates`, `C47_more_iterations`, `C47_example`, `C47_no_limits_refuted`, `C47_within_limits_refuted`, `C47_tree_call`, `C47_tree_log_is_faithful`, `C47_tree_terminates`, `C47_tree_only_requested_endpoints_refuted`, `C48_call`, `C48_log_is_faithful`, `C48_getError_refuted`, `C48_success_pose_refuted`, `C49_call`, `C49_log_is_faithful`, `C49_limits`, `C49_terminates`, `C49_only_requested_endpoints_refuted`
* DNF: `C47_fk_solver`, `C47_tree_fk_solver`, `C49_cartesian_velocity`, `C49_cartesian_velocity_equal_limits`, `C49_cartesian_limit_refuted`, `C49_cartesian_limit_equal_refuted`
* D: `C47_tree_endpoints`, `C49_endpoints`
* DF: `C49_joint_velocity`

## InertiaProps.v

* DF: `C34_momentum`, `C34_kinetic_energy`, `C34_bodies`, `C34_transform_momentum`, `C34_transform_energy`, `C34_transform_laws`, `C34_linear`, `C34_symmetric`, `C34_positive`, `C34_cog`, `C34_cog_frame`, `C34_articulated_of_rigid`, `C34_articulated_linear`, `C34_articulated_transform`

## IoProps.v

* DNCF: `C55_Vector_same`, `C55_Twist_same`, `C55_Wrench_same`, `C55_Rotation_same`, `C55_Frame_same`, `C55_Vector2_same`, `C55_same_witness`, `C55_Vector_back`, `C55_Twist_back`, `C55_Wrench_back`, `C55_Rotation_back`, `C55_Frame_back`, `C55_Vector2_back`, `C55_default_precision_error`, `C55_default_precision_same_refuted`, `C55_exception_keeps_value_refuted`, `C55_Rotation2_unchanged`, `C55_Frame2_rotation_unchanged`, `C55_Rotation2_same_refuted`
* DF: `C55_Vector_only`, `C55_Twist_only`, `C55_Wrench_only`, `C55_Vector2_only`, `C55_Vector_reads`, `C55_Twist_reads`, `C55_Wrench_reads`, `C55_Vector2_reads`, `C55_ZERO_reads`, `C55_Twist_value_or_exception`, `C55_Wrench_value_or_exception`, `C55_Vector2_value_or_exception`, `C55_Vector_value_or_exception`, `C55_Vector_ends`, `C55_long_word_raises_refuted`, `C55_slash_raises_refuted`, `C55_word_at_end_refuted`, `C55_number_at_end`, `C55_number_missing`, `C55_malformed_number_is_zero`
* DNF: `C55_Rotation_only`, `C55_Frame_only`, `C55_Rotation_reads`, `C55_Frame_reads`, `C55_IDENTITY_reads`, `C55_Rotation2_value_or_exception`, `C55_Rotation_ends`, `C55_Frame_ends`, `C55_short_Rotation_raises_refuted`, `C55_short_Frame_raises_refuted`, `C55_failed_read_fills_prefix`
* -: `C55_keyword_case`, `C55_Upper_letter`, `C55_Eat_description`, `C55_Eat_description_letter`, `C55_Eat_description_space`, `C55_Eat_description_example`

## JntProps.v

* D: `C52_Add`, `C52_Subtract`, `C52_Multiply`, `C52_assign`, `C52_SetToZero`, `C52_different_sizes_undefined`, `C52_construct`, `C52_resize`
* DF: `C52_Divide`, `C52_Equal`, `C52_resize_zeroes_refuted`, `C52_vel_Add`, `C52_vel_Subtract`, `C52_vel_Add_array`, `C52_vel_Subtract_array`, `C52_vel_Multiply`, `C52_vel_Divide`, `C52_vel_Multiply_doubleVel`, `C52_vel_Divide_doubleVel`, `C52_vel_SetToZero`, `C52_vel_Equal`, `C52_vel_Multiply_in_place_refuted`, `C52_vel_Divide_in_place_refuted`, `C52_acc_Add`, `C52_acc_Subtract`, `C52_acc_Add_vel`, `C52_acc_Subtract_vel`, `C52_acc_Add_array`, `C52_acc_Subtract_array`, `C52_acc_Multiply`, `C52_acc_Divide`, `C52_acc_Multiply_doubleVel`, `C52_acc_Multiply_doubleAcc`, `C52_acc_Divide_doubleVel`, `C52_acc_Divide_doubleAcc`, `C52_acc_Equal`, `C52_acc_Multiply_in_place_refuted`

## KinProps.v

* DNF: `C16_joint_twist_is_velocity`, `C16_segment_twist_is_velocity`, `C16_poses_rigid`, `C16_constructors_ok`, `C17_segment_tip`, `C17_segment_setFrameToTip`, `C17_segment_pose`, `C18_chain_counts`, `C18_chain_operations_total`, `C18_self_assignment_refuted`, `C18_self_append_diverges`, `C19_forward_kinematics`, `C19_tip_rigid`, `C19_concatenation`, `C19_reachable_wf`, `C20_fk_vector`, `C20_fkvel_vector`, `C21_velocity_is_derivative`, `C21_error_codes`, `C22_jacobian_times_velocity`, `C22_column_is_partial_derivative`, `C23_locked_joints`, `C25_jacdot_is_derivative`, `C25_jacdot_twist`, `C25_locked_refuted`, `C26_jacobian_solver_protocol`, `C26_jacdot_solver_protocol`, `C56_joint_geometry_cardinal`, `C56_joint_geometry_axis`, `C56_constructor_exceptions`
* DF: `C16_velocity_unique`, `C24_jacobian_transforms_in_place`, `C24_jacobian_transforms_copying`
* -: `C17_segment_copies`, `C23_bad_mask_rejected`

## KioProps.v

* DNF: `C75_tree2str_lines`, `C75_tree2str_determines`, `C75_tree2str_determines_refuted`, `C75_tree_case`, `C75_Tree_layout`, `C75_Tree_determines`
* DNCF: `C75_Joint_determines`, `C75_Segment_determines`, `C75_Chain_text`, `C75_Chain_determines`, `C75_agree_exact`, `C75_Joint_complete_refuted`, `C75_JntArray_cells`, `C75_JntArray_determines`, `C75_Jacobian_cells`, `C75_JntSpaceInertiaMatrix_cells`, `C75_JntArray_determines_refuted`, `C75_read_back_refuted`
* D: `C75_Joint_case`
* DF: `C75_JntArray_case`
* -: `C75_read_unchanged`

## LifeProps.v

* -: `C81_undefined_exactly_when`, `C81_only_calls`, `C81_names_kept`, `C81_names_kept_example`, `C81_keep_alive_would_suffice`, `C81_lifetime_refuted`, `C81_lifetime_refuted_solvers`, `C81_tree_solvers_own_a_copy`, `C81_chain_solvers_see_changes`, `C81_copies_example`, `C81_attribute_is_a_part`, `C81_attribute_stays`, `C81_write`, `C81_assign`, `C81_copy`, `C81_layout`, `C81_attribute_classes`, `C81_type_errors`, `C81_chain_copy`
* D: `C81_attributes_example`

## LinProps.v

* DF: `C33_ldl`, `C33_factorisation_found`, `C33_size_mismatch`

## LmaConvProps.v

* DNCF: `C70_lma_converges`, `C70_lma_example`

## LmaProps.v

* DNCF: `C48_lma_call`, `C48_lma_example`, `C48_lma_lastDifference_refuted`, `C48_lma_lastTransDiff_refuted`
* D: `C48_lma_constructed`, `C48_lma_updated`
* DNF: `C48_lma_forward`, `C48_lma_jacobian`, `C48_lma_svd_example`

## MioProps.v

* DNCF: `C68_path_complete`, `C68_trajectory_complete`, `C68_path_only`, `C68_trajectory_only`, `C68_readers_end`, `C68_path_back`, `C68_profile_back`, `C68_segment_back`, `C68_lines_rounded`, `C68_lines_same`, `C68_lines_witness`, `C68_stationary_refused`, `C68_composite_refused`, `C68_spline_refused`, `C68_cut_short_defined_refuted`, `C68_long_keyword_defined_refuted`, `C68_circle_text`, `C68_circle_same_refuted`, `C68_circle_readable_refuted`, `C68_segment_stands_still`
* DF: `C68_profile_complete`, `C68_profile_only`, `C68_profile_leaves_stream_good_refuted`, `C68_motion_lost`
* D: `C68_axes_refused`
* DNF: `C68_duration_kept_refuted`

## MiscProps.v

* D: `C72_Add`, `C72_Subtract`, `C72_different_sizes_undefined`, `C72_Multiply`, `C72_assign`, `C72_SetToZero`, `C72_construct`, `C72_set_entry`, `C72_Multiply_array_size`, `C72_example`, `C72_Multiply_array_example`
* DF: `C72_Divide`, `C72_Equal`, `C72_resize_contents_refuted`, `C72_Multiply_array`, `C72_Multiply_in_place_refuted`, `C73_inverse_of_product`, `C73_product_of_inverse`, `C73_sum`, `C73_linear`, `C73_work`, `C73_work_zero`, `C73_default`, `C73_random_double`, `C73_posrandom_double`, `C73_random_stiffness`, `C73_example`
* -: `C72_default`, `C72_outside_undefined`, `C72_resize`, `C73_from_array`, `C73_from_short_array`, `C74_balanced`, `C74_pop_empty_undefined`, `C74_popStr`, `C74_popStr_empty`, `C74_popStr_no_room`, `C74_popStr_overrun`, `C74_output`, `C74_balanced_example`, `C74_popStr_example`

## NewtonProps.v

* DNCF: `C70_nr_converges`, `C70_nrjl_converges`, `C70_nr_pinv_converges`, `C70_nrjl_pinv_converges`, `C70_converges_example`

## NewtonWdlsProps.v

* DNCF: `C70_nr_wdls_converges`, `C70_nrjl_wdls_converges`, `C70_wdls_example`

## OwnProps.v

* -: `C78_no_undefined_behaviour`, `C78_pointers_stay_valid`, `C78_delete_in_any_order`, `C78_nothing_leaks`, `C78_clone_is_deep`, `C78_borrowed_survive`, `C78_borrower_copy`, `C78_implicit_copy_deletes_twice`, `C78_rounded_constructor_refuted`, `C78_read_rounded_refuted`, `C78_clone_trajectory_refuted`, `C78_borrowing_circle_refuted`, `C78_borrowing_composite_refuted`, `C78_borrowing_cyclic_refuted`

## PathProps.v

* DNCF: `C44_line`, `C44_line_near_tolerance`, `C44_line_from_twist`, `C44_circle`, `C44_line_clone`, `C44_zero_eqradius_refuted`, `C44_twist_in_base_frame_refuted`, `C44_zero_angle_circle_refuted`, `C44_circle_clone_refuted`, `C45_clone`, `C45_velocity_at_knot_refuted`, `C62_corner`, `C62_polyline`, `C62_short_legs_refuted`, `C62_failed_add_changes_path_refuted`, `C62_single_point_refuted`, `C44_circle_witness`, `C45_composite_witness`, `C45_cyclic_witness`, `C62_polyline_witness_corners`, `C62_polyline_witness`
* DF: `C45_composite_length`, `C45_answers`, `C45_only_covering_component`, `C45_history_independent`, `C45_cyclic_period`, `C45_outside_undefined`, `C45_empty_undefined`, `C45_no_length_to_s`
* DNF: `C45_history_independent_pos`, `C45_velocity`, `C45_acceleration`, `C44_line_witness`

## PinvProps.v

* DNF: `C69_pinv_accurate`, `C69_pinv_accurate_example`, `C69_pinv_accurate_refuted`
* DNCF: `C69_pinv_accurate_double`, `C69_pinv_accurate_double_refuted`

## ProfProps.v

* DNF: `C40_trap_profile`, `C40_limits_keep_old_object`, `C41_duration`, `C41_velocity`, `C41_standstill_refuted`, `C60_attained`, `C42_half_profile`, `C42_half_duration`, `C42_half_standstill_refuted`, `C42_half_acceleration_refuted`, `C61_trap_clone`, `C61_half_clone_refuted`, `C40_witness`
* DNCF: `C60_time_optimal`
* DF: `C42_rect_profile`, `C42_rect_still`, `C42_rect_duration`, `C42_rect_reverse_limit_refuted`, `C42_rect_zero_duration_refuted`, `C42_dirac_jump`, `C42_dirac_ramp`, `C43_velocity`, `C43_acceleration`, `C43_linear`, `C43_cubic`, `C43_quintic`, `C43_degenerate`, `C43_held_outside_refuted`, `C61_rect_clone`
* -: `C61_dirac_clone`, `C61_spline_clone`

## PyProps.v

* D: `C77_getitem`, `C77_setitem`, `C77_iteration`, `C77_frame_matrix_defined`, `C77_Make4x4`, `C77_access_precondition`
* DF: `C77_getitem_matrix`, `C77_setitem_matrix`, `C77_frame_matrix_action`, `C77_frame_matrix_product`, `C77_frame_matrix_inverse`, `C77_planar_entries`, `C77_planar_matrix_refuted`
* -: `C77_set_columns`
* DNCF: `C77_pickle`, `C77_pickle_exact_refuted`
* DNF: `C77_unpickle_any`, `C77_unpickle_class`, `C77_unpickle_wrong_size`

## RobotProps.v

* DNF: `C36_kinetic_positive`, `C36_positive_definite`, `C36_definite_links`, `C37_arms_with_mass`, `C80_puma_built`, `C80_puma_pose`, `C80_puma_wrist`, `C80_puma_singularities`, `C80_example`, `C80_puma_dynamics`, `C80_puma_mass`, `C80_puma_forward_dynamics`, `C80_kuka_built`, `C80_kuka_pose`, `C80_kuka_reach`, `C80_kuka_masses`, `C80_kuka_wrist`, `C80_kuka_inertia_refuted`
* DNCF: `C70_nr_regular`, `C70_nrjl_regular`, `C70_regular_example`, `C80_puma_inverse_kinematics`

## SvdProps.v

* DNF: `C54_eigen_code`, `C54_svd_hh_code`, `C54_eigen_limit_one`, `C54_svd_hh_limit_one`, `C54_eigen_limit_zero`, `C54_svd_hh_limit_zero`, `C54_failure_is_reported_refuted`, `C54_success_is_reported_refuted`, `C64_eigen_accuracy`, `C64_svd_hh_accuracy`, `C64_eigen_accuracy_any`, `C64_eigen_accuracy_unless_fooled`, `C64_svd_hh_accuracy_unless_fooled`, `C64_eigen_exact`, `C64_svd_hh_exact`, `C64_witness`, `C64_larger_matrices_refuted`
* DNCF: `C64_double_units`, `C64_double_rounds`, `C64_double_units2`

## TrajProps.v

* DNF: `C46_segment_velocity`, `C46_segment_acceleration`, `C46_elementary_segment`, `C46_stationary`, `C46_composite_duration`, `C46_composite_answers`, `C46_always_something_playing`, `C46_composite_motion`, `C46_empty_composite_undefined`
* DNCF: `C46_straight_move`, `C46_via_points`, `C46_clone`, `C46_clone_witness`
* DF: `C46_playing_unique`, `C46_destroy_resets_duration_refuted`, `C46_via_points_witness`

## TreeDynProps.v

* DNF: `C38_one_branch_equals_chain`, `C38_missing_wrench_is_zero`, `C38_newton_euler`, `C38_sum_of_chains`, `C38_codes`, `C38_update_restores`, `C38_failed_call_overwrites_refuted`, `C38_witness`

## TreeProps.v

* DNF: `C27_wellformed`, `C27_operations_defined`, `C28_addChain_atomic_refuted`, `C29_copy`, `C29_assign_is_copy`, `C29_self_assignment_refuted`, `C29_numbering_refuted`, `C29_solver_numbering_refuted`, `C30_missing_name`, `C30_pose`, `C30_pose_scaled`, `C30_pose_defined`, `C30_scale_refuted`, `C31_tree_fk`, `C31_no_joints_refuted`, `C32_tree_jacobian`, `C32_user_numbering`, `C32_no_joints_refuted`, `C57_addTree`, `C57_getSubTree`
* -: `C28_addSegment`, `C28_addChain`

## TreeSegProps.v

* DNF: `C30_segments`, `C30_segments_example`, `C30_python`, `C30_python_refuted`

## VelIkProps.v

* DNF: `C53_pinv`, `C53_nso`, `C53_nso_few_joints_refuted`, `C53_wdls_codes`, `C53_wdls`, `C53_wdls_identity`, `C53_wdls_is_pinv`, `C53_tree_constructed`, `C53_tree_setters`, `C53_tree_codes`, `C53_tree`, `C53_chain_example`, `C53_tree_example`, `C53_pinv_singular_refuted`, `C53_wdls_default_refuted`, `C53_tree_default_refuted`, `C53_wdls_weight_shape_refuted`
* D: `C53_pinv_constructed`, `C53_pinv_updated`, `C53_nso_constructed`, `C53_nso_updated`, `C53_wdls_constructed`, `C53_wdls_updated`, `C53_wdls_weighted_twist`
* -: `C53_nso_setters`, `C53_wdls_setters`, `C53_wdls_setWeightJS_stale`, `C53_wdls_getSigma`, `C53_setter_errors`
* DF: `C53_nso_posture_rate`
