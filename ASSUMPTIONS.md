# What `Print Assumptions` lists for each property theorem

Generated by `tools/gen_assumptions.py`. Every axiom comes from the standard library of Coq 8.16.1.

## closed under the global context (no axiom)

Props_AddShapes2.C98_ids, Props_AddShapes2.C98_ids_witness, Props_Apart.C103_robot, Props_Coll.C21_documented, Props_Coll.C21_others, Props_Coll.C21_point_box_refuted, Props_Coll.C22_contacts, Props_Coll.C22_point_box_refuted, Props_Com3.C87_space_witness, Props_Decor.C107_register, Props_Named.C01_find_all, Props_Named.C01_getitem_first, Props_Named.C01_getitem_int, Props_Named.C01_getitem_keyerror, Props_Named.C01_nonvacuous, Props_Named.C02_as_dict_partial, Props_Named.C02_as_dict_refuted, Props_Named.C02_nonvacuous, Props_Named.C03_duplicates_on_lists, Props_Named.C03_names_everything, Props_Named.C04_generators_refuted, Props_Named.C04_witness, Props_Sim.C19_empty, Props_Urdf2.C67_chain, Props_Urdf2.C67_parse, Props_Urdf2.C67_root, Props_UrdfShapes2.C97_fixed_refuted, Props_UrdfXml3.C94_prolog_refuted, Props_UrdfXml4.C95_ascii_refuted, Props_World.C05_links_agree, Props_World.C05_multi_add_link, Props_World.C05_tree, Props_World.C06_loops_refuted, Props_World.C06_second_parent_partial, Props_World.C06_witness, Props_World.C07_add_link_effect, Props_World.C07_multi_is_successive, Props_World.C07_nonvacuous, Props_World.C07_only_links_accepted, Props_World.C08_refused_partial, Props_World.C08_retry_refuted, Props_World.C08_witness, Props_World.C09_descendants, Props_World.C09_subtrees_contiguous, Props_World.C09_traversal, Props_World.C10_ancestor_iff_descendant, Props_World.C10_ancestors, Props_World.C10_nonvacuous, Props_World.C11_nonvacuous, Props_World.C11_replace_chain, Props_World.C11_replace_one, Props_World.C12_atomic_refuted, Props_World.C12_checks_partial, Props_World.C12_witness, Props_World.C13_idempotent, Props_World.C13_refusals, Props_World.C13_register_exact, Props_World.C13_registered_once, Props_World.C14_C15_init, Props_World.C14_partition, Props_World.C15_init_twice, Props_World.C15_no_sharing, Props_World.C15_write, Props_World.C16_members, Props_World.C16_nonvacuous, Props_World.C16_uninitialised, Props_World.C16_whole_world, Props_World.C17_nonvacuous, Props_World.C17_parse

## `ClassicalDedekindReals.sig_forall_dec`

Props_AddShapes2.C98_instance_refuted, Props_AddShapes2.C98_scale_refuted, Props_Anim2.C85_view_default, Props_Anim2.C85_view_refuted, Props_Coll.C21_C22_witness, Props_Com3.C87_space_refuted, Props_Con2.C50_foreign_witness, Props_Ctl.C46_defined_partial, Props_Ctl.C46_mixed_refuted, Props_Ctl.C46_mixed_witness, Props_Disabled.C108_limit_refuted, Props_Dyn.C39_C40_reachable, Props_File.C86_reuse_refuted, Props_File.C86_shape_refuted, Props_Sim.C18_counts, Props_Step.C45_reachable, Props_UrdfShapes2.C67_document, Props_UrdfShapes2.C97_limits, Props_UrdfShapes2.C97_witness, Props_UrdfXml.C94_texts, Props_UrdfXml2.C94_contents, Props_UrdfXml3.C94_readable, Props_UrdfXml3.C94_several_refuted, Props_UrdfXml3.C94_witness, Props_UrdfXml4.C95_again, Props_UrdfXml4.C95_mimic_refuted, Props_UrdfXml4.C95_read, Props_UrdfXml4.C95_same

## `Classical_Prop.classic`

Props_Sim4.C20_flat_duplicates_refuted

## `ClassicalDedekindReals.sig_forall_dec`, `FunctionalExtensionality.functional_extensionality_dep`

Props_AddShapes.C98_items, Props_AddShapes2.C98_file, Props_AddShapes2.C98_geometry_refuted, Props_AddShapes2.C98_name_refuted, Props_AddShapes2.C98_whole_refuted, Props_AddShapes2.C98_witness, Props_Arm.C71_arm, Props_Checks.C69_adjoints_accepted, Props_Checks.C69_refuted, Props_Checks.C69_shape_partial, Props_Checks.C70_tolerance, Props_Coll2.C54_witness, Props_Coll2.C56_witness, Props_Color.C57_injective, Props_Color.C57_periodic, Props_Color.C57_reference, Props_Color.C57_valid, Props_Color.C57_witness, Props_Color2.C58_distinct, Props_Color2.C58_exhausted, Props_Color2.C58_shared, Props_Color2.C58_stable, Props_Color2.C58_total, Props_Color2.C58_witness, Props_Con.C49_solve_returns_increment, Props_Con.C50_coupled_refuted, Props_Con.C50_force_signs, Props_Con.C50_limits_partial, Props_Con.C50_one_dof, Props_Con.C50_two_sided_refuted, Props_Con.C50_witness, Props_Con.C51_gap_closed, Props_Con2.C50_foreign_refuted, Props_Con2.C50_own_dofs, Props_Ctl.C46_effective_force, Props_Dyn.C44_body_gyroscopic, Props_Energy.C61_energymonitor_massless_refuted, Props_EnergyEx.C61_witness, Props_Finger.C52_attractive_refuted, Props_Finger.C52_defined, Props_Finger.C52_frictionless_refuted, Props_Finger.C52_frictionless_witness, Props_Finger.C52_no_contact, Props_Finger.C52_persistence_dissipation, Props_Human36.C68_human, Props_Human36_3.C68_height, Props_Human36_3.C68_limbs, Props_Human36_3.C68_mass, Props_Human36_3.C68_names, Props_Human36_3.C68_refuses, Props_Human36_3.C76_hands_refuted, Props_Human36_5.C68_joints, Props_Joints.C31_witness, Props_Lone.C72_plane, Props_Mass.C37_rigid_body, Props_Mass.C37_transport, Props_Mass.C37_witness, Props_Mass.C38_principalframe, Props_Mass.C38_witness, Props_Matlab2.C91_plane_refuted, Props_Matlab3.C92_backwards, Props_Matlab3.C92_gravity_refuted, Props_Matlab3.C92_refuses, Props_Matlab3.C92_simulation, Props_Matlab3.C92_timeline, Props_Matlab3.C92_timeline_refuted, Props_Mem.C88_reading, Props_Move.C101_witness_free, Props_Perf.C100_no_step, Props_Perf.C100_positive, Props_Perf.C100_steps, Props_Perf.C100_summary, Props_Perf.C100_witness, Props_Rest.C102_witness_pd, Props_Robots2.C60_args, Props_SE3.C24_accepted_but_not_inverted_refuted, Props_SE3.C24_inv_is_inverse, Props_SE3.C24_inv_refuses, Props_SE3.C24_inv_reverses_products, Props_SE3.C24_inverted_iff_orthogonal, Props_SE3.C25_actions, Props_SE3.C26_adjoint_moves_twists, Props_SE3.C26_adjoint_representation, Props_SE3.C27_adjacency_is_lie_bracket, Props_SE3.C27_dAdjoint_is_derivative, Props_Sim5.C20_flat_duplicates_witness, Props_Step.C45_singular, Props_Step.C45_witness, Props_Units.C106_tiny_refuted, Props_UrdfXml4.C95_witness

## `ClassicalDedekindReals.sig_forall_dec`, `ClassicalDedekindReals.sig_not_dec`, `FunctionalExtensionality.functional_extensionality_dep`

Props_Angles.C30_accepted_but_not_homogeneous_refuted, Props_Angles.C30_accepted_vector_partial, Props_Angles.C30_refuses, Props_Angles.C30_witness, Props_Angles.C30_zaligned_frame, Props_Anim2.C20_observed_poses, Props_Apart.C103_alone, Props_Apart.C103_branches, Props_Apart2.C103_witness, Props_Arm2.C71_reach, Props_Arm2.C71_refuses, Props_Arm2.C71_workspace, Props_Checks.C45_joint_integrate, Props_Checks.C70_definite, Props_Checks.C78_rigid_refuted, Props_CoM.C64_position_jacobian, Props_CoM.C79_djacobian_error, Props_CoM.C79_djacobian_partial, Props_CoMEx.C79_djacobian_refuted, Props_Coll.C54_coincident, Props_Coll.C54_spheres, Props_Coll.C54_swap, Props_Coll2.C55_convention_refuted, Props_Coll2.C55_ground_refuted, Props_Coll2.C55_new_plane, Props_Coll2.C55_penetration_refuted, Props_Coll2.C55_plane_partial, Props_Coll2.C55_witness, Props_Coll2.C56_inside_partial, Props_Coll2.C56_normal_refuted, Props_Coll2.C56_outside, Props_Coll3.C73_contact, Props_Coll3.C73_gap, Props_Coll3.C73_plane, Props_Coll3.C73_witness, Props_Com3.C87_unconnected_refuted, Props_Com3.C87_unfinished_refuted, Props_Con.C48_library, Props_Con.C51_velocity_partial, Props_Con.C51_velocity_refuted, Props_Con2.C50_idle, Props_Con2.C50_step, Props_Con2.C50_step_witness, Props_Con2.C51_step, Props_Con2.C52_step, Props_Contact.C53_gap_rate, Props_Contact.C53_update, Props_Contact.C53_witness, Props_Convert.C93_serial, Props_Convert3.C93_compatible, Props_Convert3.C93_motion, Props_Convert4.C93_mass_refuted, Props_Convert4.C93_witness, Props_Ctl.C46_step, Props_Ctl.C46_witness, Props_Dae3.C83_line_start_refuted, Props_Dae5.C81_witness, Props_Dae5.C84_ids_witness, Props_Decor.C107_decor, Props_Decor.C107_witness, Props_Defect.C42_djacobian_error, Props_Defect.C80_power, Props_Defect.C80_world, Props_Defect2.C63_energy_balance, Props_Defect3.C63_energy_refuted, Props_Disabled.C108_disabled, Props_Disabled.C108_witness, Props_Draw.C59_never_missing, Props_Draw2.C59_scene, Props_Draw3.C59_animation, Props_Draw3.C59_flat_moving_refuted, Props_Draw3.C59_moving_child_refuted, Props_Draw3.C59_witness, Props_Draw4.C59_transforms, Props_Dyn.C34_three_hinges, Props_Dyn.C34_two_hinges, Props_Dyn.C39_poses, Props_Dyn.C40_twist_is_jacobian_gvel, Props_Dyn.C41_pose_derivative, Props_Dyn.C42_djacobian_partial, Props_Dyn.C43_mass_matrix, Props_Dyn.C80_power_partial, Props_Dyn.C80_world_partial, Props_DynEx.C34_witness, Props_DynEx.C34_witness2, Props_DynEx.C39_C44_witness, Props_DynEx.C42_djacobian_refuted, Props_DynEx.C80_world_refuted, Props_Energy.C47_gravity_energy, Props_Energy.C63_energy_balance_partial, Props_EnergyEx.C63_witness, Props_Exp.C28_axis_and_angle, Props_Exp.C28_small_angle_defect, Props_Exp.C28_velocity, Props_Exp.C28_witness_large, Props_Exp.C28_witness_small, Props_File.C86_model_refuted, Props_File.C86_roundtrip, Props_File.C86_state_refuted, Props_File.C86_state_witness, Props_Finger.C52_cone_partial, Props_Finger.C52_witness, Props_Gravity.C109_gravities, Props_Gravity.C109_weightless, Props_Gravity.C109_weightless_witness, Props_Gravity.C109_witness, Props_Human36_2.C68_standing, Props_Icub6.C74_limits, Props_Icub6.C75_zero_refuted, Props_Joints.C31_joint_twist_is_velocity, Props_Joints.C31_witness_free, Props_Joints.C32_djacobian_is_derivative, Props_Joints.C33_dadjoint, Props_Joints.C33_inverse_motion_partial, Props_Joints.C33_ipose, Props_Joints.C33_itwist_refuted, Props_Joints.C35_bounded_run_partial, Props_Joints.C35_drift_refuted, Props_Joints.C35_stays_rigid_partial, Props_Joints.C35_witness, Props_Lone.C72_free, Props_Lone.C72_refuses, Props_Lone.C72_solids, Props_Matlab.C91_robot, Props_Matlab2.C91_accepts, Props_Matlab2.C91_lone_refuted, Props_Matlab2.C91_outside_refuted, Props_Matlab2.C91_refuses, Props_Matlab2.C91_reuse_refuted, Props_Matlab2.C91_unnamed_refuted, Props_Matlab3.C91_witness, Props_Matlab3.C92_witness, Props_Mem.C88_owned, Props_Mem.C88_record, Props_Mem.C88_snapshot, Props_Mem.C88_values, Props_Mem.C89_history, Props_Mem.C89_live, Props_Mem.C90_apart, Props_Mem.C90_new_frames, Props_Mem.C90_shared, Props_Mem.C90_subframe_refuted, Props_Mem2.C88_witness, Props_Mem2.C89_history_refuted, Props_Move.C101_moved, Props_Move.C101_witness, Props_Order.C104_order, Props_Order.C104_witness, Props_Rest.C102_rest, Props_Rest.C102_witness, Props_Resume.C99_observed, Props_Resume.C99_resume, Props_Resume.C99_witness, Props_Robots.C60_rejects, Props_SE3.C23_elementary_transforms, Props_SE3.C23_sense_of_rotation, Props_SE3.C25_isometry, Props_SE3.C27_witness, Props_Sim.C18_schedule, Props_Sim.C19_non_increasing, Props_Sim2.C20_in_bounds, Props_Sim2.C20_logger_partial, Props_Sim2.C20_recorders, Props_Sim3.C18_progress, Props_Sim4.C18_C20_witness, Props_Sim5.C19_witness, Props_Sim5.C20_logger_witness, Props_Sim5.C65_observers_passive, Props_Sim6.C20_loggers_harmless, Props_Start.C105_start, Props_Start.C105_witness, Props_Step.C45_step, Props_Step.C48_solver_velocities, Props_Units.C106_limits_witness, Props_Units.C106_motion, Props_Units.C106_units, Props_Units.C106_witness, Props_Urdf3.C62_robot, Props_Urdf3.C66_optional_refuted, Props_UrdfShapes.C96_box_refuted, Props_UrdfShapes.C96_drawn, Props_UrdfShapes.C96_file_refuted, Props_UrdfShapes.C96_optional_refuted, Props_UrdfShapes.C96_shapes, Props_UrdfShapes.C96_witness, Props_UrdfShapes2.C62_document, Props_UrdfShapes2.C62_document_witness, Props_Weight.C47_weight_is_conservative

## `ClassicalDedekindReals.sig_forall_dec`, `ClassicalDedekindReals.sig_not_dec`, `Classical_Prop.classic`, `FunctionalExtensionality.functional_extensionality_dep`

Props_Angles.C29_band_error, Props_Angles.C29_band_refuted, Props_Angles.C29_range, Props_Angles.C29_recovers_angles_partial, Props_Angles.C29_reproduces_rotation_partial, Props_Angles.C29_witness, Props_Anim.C85_animation, Props_Anim2.C85_scene, Props_Anim2.C85_witness, Props_Com2.C87_message, Props_Com2.C87_viewer, Props_Com3.C87_witness, Props_Convert.C93_root, Props_Convert4.C93_root_refuted, Props_Dae.C81_shapes, Props_Dae2.C82_ellipsoids, Props_Dae2.C82_physics, Props_Dae3.C83_arrows, Props_Dae3.C83_links, Props_Dae4.C84_ids, Props_Dae4.C84_unique, Props_Dae5.C81_up, Props_Dae5.C81_up_refuted, Props_Dae5.C82_daenim_sid_refuted, Props_Dae5.C84_ground_refuted, Props_Dae5.C84_ids_refuted, Props_Exp.C28_exp_is_the_screw_motion, Props_Exp.C28_small_angle, Props_File.C86_witness, Props_Icub.C74_icub, Props_Icub2.C74_masses, Props_Icub2.C74_weight, Props_Icub3.C74_poses, Props_Icub4.C74_mirror, Props_Icub5.C74_standing, Props_Icub6.C74_names, Props_Icub6.C75_shape_names_refuted, Props_Mass.C36_mass_constructors, Props_Robots.C60_end, Props_Robots.C60_position, Props_Robots.C60_snake, Props_Urdf.C62_load, Props_Urdf.C62_position, Props_Urdf3.C62_prefix_refuted

## `ClassicalDedekindReals.sig_forall_dec`, `ClassicalUniqueChoice.dependent_unique_choice`, `Classical_Prop.classic`, `FunctionalExtensionality.functional_extensionality_dep`, `RelationalChoice.relational_choice`

Props_Finger.C52_cone_refuted

## `ClassicalDedekindReals.sig_forall_dec`, `ClassicalDedekindReals.sig_not_dec`, `ClassicalUniqueChoice.dependent_unique_choice`, `Classical_Prop.classic`, `FunctionalExtensionality.functional_extensionality_dep`, `RelationalChoice.relational_choice`

Props_Arm2.C71_witness, Props_Arm2.C77_atomic_refuted, Props_Checks.C70_example, Props_Human36_4.C68_witness, Props_Icub6.C74_witness, Props_Lone.C72_witness, Props_Robots2.C60_witness, Props_Urdf3.C62_witness

